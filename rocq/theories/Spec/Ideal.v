(** The ideal machine: the variables hold integers of any size, and the
    instructions are ordinary arithmetic. A result that the library cannot
    represent stops the machine with the documented panic. *)
From Verif Require Import Model.Base Model.Buffer Model.UBig Model.IBig Model.Program Spec.Val Spec.Num Spec.Prim Spec.Digits.

(** The number of trailing zero bits. *)
Fixpoint ptz (p : positive) : Z := match p with xO p => 1 + ptz p | _ => 0 end.
Definition itz (z : Z) : option Z := match z with 0 => None | Zpos p | Zneg p => Some (ptz p) end.

Definition ibitlen (z : Z) : Z := if z =? 0 then 0 else Z.log2 z + 1.

(** The bytes of [z], least significant first, without leading zeros. *)
Definition ibytes (z : Z) : list Z :=
  map (fun i => (z / 256 ^ Z.of_nat i) mod 256) (seq 0 (Z.to_nat ((ibitlen z + 7) / 8))).

Definition in_prim (sg : bool) (tb z : Z) : option Z :=
  if sg then if (- 2 ^ (tb - 1) <=? z) && (z <? 2 ^ (tb - 1)) then Some z else None
  else if (0 <=? z) && (z <? 2 ^ tb) then Some z else None.

(** Division by [d]. *)
Definition over {T} (d : Z) (r : res T) : res T := if d =? 0 then Panic DivideByZero else r.

Section Ideal.
Context {A : Arch}.

(** Results that have to be unsigned, or signed, and of at most MAX_BIT_LEN bits. *)
Definition fits (z : Z) : res Z := if z <? MAXV then Ok z else Panic NumberTooLarge.
Definition ifits (z : Z) : res Z := if Z.abs z <? MAXV then Ok z else Panic NumberTooLarge.
Definition fits_nat (z : Z) : res Z := if z <? 0 then Panic NegativeUBig else fits z.
Definition fits_unsigned (z : Z) : res Z := if z <? 0 then (if - z <? MAXV then Panic NegativeUBig else Panic NumberTooLarge) else fits z.
Definition natural (z : Z) : res Z := if z <? 0 then Panic NegativeUBig else Ok z.

Definition ubin_ideal (op : ubin) (a b : Z) : res Z :=
  match op with
  | UAdd => fits (a + b)
  | USub => fits_nat (a - b)
  | UMul => fits (a * b)
  | UAnd => Ok (Z.land a b)
  | UOr => Ok (Z.lor a b)
  | UXor => Ok (Z.lxor a b)
  | UAndNot => Ok (Z.ldiff a b)
  | UDiv => over b (Ok (a / b))
  | URem => over b (Ok (a mod b))
  | UGcd => if (a =? 0) && (b =? 0) then Panic GcdOfZeros else Ok (Z.gcd a b)
  end.

Definition ibin_ideal (op : ibin) (a b : Z) : res Z :=
  match op with
  | IAdd => ifits (a + b)
  | ISub => ifits (a - b)
  | IMul => ifits (a * b)
  | IAnd => ifits (Z.land a b)
  | IOr => ifits (Z.lor a b)
  | IXor => ifits (Z.lxor a b)
  | IAndNot => ifits (Z.ldiff a b)
  | IDiv => over b (Ok (Z.quot a b))
  | IRem => over b (Ok (Z.rem a b))
  | IDivE => over b (Ok (ediv a b))
  | IRemE => over b (Ok (emod a b))
  | IGcd => if (a =? 0) && (b =? 0) then Panic GcdOfZeros else Ok (Z.gcd a b)
  end.

Definition uun_ideal (op : uun) (a : Z) : res Z :=
  match op with
  | UClone => Ok a
  | UNextPow => fits (2 ^ Z.log2_up a)
  end.

Definition iun_ideal (op : iun) (a : Z) : res Z :=
  match op with
  | IClone => Ok a
  | INeg => Ok (- a)
  | IAbs => Ok (Z.abs a)
  | ISignum => Ok (Z.sgn a)
  | INot => ifits (Z.lnot a)
  end.

Definition uprim_ideal (sg : bool) (op : prim_op) (a c : Z) : res Z :=
  match op with
  | PAdd => if sg then fits_unsigned (a + c) else fits (a + c)
  | PSub => if sg then fits_unsigned (a - c) else fits_nat (a - c)
  | PSubFrom => fits_unsigned (c - a)
  | PMul => if sg then fits_unsigned (a * c) else fits (a * c)
  | PAnd => fits (Z.land a c)
  | POr => if sg then fits_unsigned (Z.lor a c) else fits (Z.lor a c)
  | PXor => if sg then fits_unsigned (Z.lxor a c) else fits (Z.lxor a c)
  | PAndNot => fits (Z.ldiff a c)
  | PDiv => over c (natural (Z.quot a c))
  | PRem => over c (Ok (Z.rem a c))
  | PDivE => over c (natural (ediv a c))
  | PRemE => over c (Ok (emod a c))
  end.

Definition iprim_ideal (op : prim_op) (a c : Z) : res Z :=
  match op with
  | PAdd => ifits (a + c)
  | PSub => ifits (a - c)
  | PSubFrom => ifits (c - a)
  | PMul => ifits (a * c)
  | PAnd => ifits (Z.land a c)
  | POr => ifits (Z.lor a c)
  | PXor => ifits (Z.lxor a c)
  | PAndNot => ifits (Z.ldiff a c)
  | PDiv => over c (Ok (Z.quot a c))
  | PRem => over c (Ok (Z.rem a c))
  | PDivE => over c (Ok (ediv a c))
  | PRemE => over c (Ok (emod a c))
  end.

Definition prim_obs_ideal (op : prim_op) (a c : Z) : res Z :=
  match op with
  | PAnd => Ok (Z.land a c)
  | PRem => over c (Ok (Z.rem a c))
  | _ => over c (Ok (emod a c))
  end.

Record istate := mkIstate { uz : nat -> Z; iz : nat -> Z }.

Definition iputu (s : istate) (d : nat) (r : res Z) : res (istate * obs) :=
  z <- r ;; Ok (mkIstate (setv (uz s) d z) (iz s), ONone).
Definition iputi (s : istate) (d : nat) (r : res Z) : res (istate * obs) :=
  z <- r ;; Ok (mkIstate (uz s) (setv (iz s) d z), ONone).
Definition iseti2 (s : istate) (q r : nat) (y z : Z) : istate := mkIstate (uz s) (setv (setv (iz s) q y) r z).
Definition itryu (s : istate) (d : nat) (z : Z) : res (istate * obs) :=
  if 0 <=? z then Ok (mkIstate (setv (uz s) d z) (iz s), OBool true) else Ok (s, OBool false).

(** A number of bytes that needs a buffer of more than MAX_LEN + 4 words is refused. *)
Definition bytes_ideal (be : bool) (bs : list Z) : res Z :=
  if 8 * Z.of_nat (length bs) <=? wbits * (MAX_LEN + 4) then fits (num 256 (if be then rev bs else bs))
  else Panic NumberTooLarge.

(** Nothing is said ([None]) about the calls of [clear_bit] that C18 shows to be wrong. *)
Definition istep (i : instr) (s : istate) : option (res (istate * obs)) :=
  let u := uz s in let x := iz s in
  match i with
  | IU2 op k d a b => Some (with_form (ubin_fns op) k s (fun _ => iputu s d (ubin_ideal op (u a) (u b))))
  | IU1 op k d a => Some (with_form (uun_fns op) k s (fun _ => iputu s d (uun_ideal op (u a))))
  | IUDivRem k q r a b => Some (with_form udiv_rem_fns k s (fun _ =>
      over (u b) (Ok (mkIstate (setv (setv u q (u a / u b)) r (u a mod u b)) x, ONone))))
  | IUShl k d a n => Some (with_form [tt; tt; tt] k s (fun _ => iputu s d (fits (u a * 2 ^ n))))
  | IUShr k d a n => Some (with_form [tt; tt; tt] k s (fun _ => iputu s d (Ok (u a / 2 ^ n))))
  | IUSetBit d n => Some (iputu s d (fits (Z.lor (u d) (2 ^ n))))
  | IUClearBit d n =>
      if (wbits <=? n) && (0 <? u d) && (u d <? B) then None
      else Some (iputu s d (Ok (Z.ldiff (u d) (2 ^ n))))
  | IUPow d a n => Some (iputu s d (fits (u a ^ n)))
  | IUCloneFrom d a => Some (iputu s d (Ok (u a)))
  | IUConst tb c d => Some (iputu s d (Ok c))
  | IUConstSigned tb c d => Some (itryu s d c)
  | IUBytes be bs d => Some (iputu s d (bytes_ideal be bs))
  | IUFromI d a => Some (itryu s d (x a))
  | IUFromIRef d a => Some (itryu s d (x a))
  | IUAbs k d a => Some (with_form [tt; tt] k s (fun _ => iputu s d (Ok (Z.abs (x a)))))
  | IUPrim op sg k tb c d a => Some (with_form (uprim_fns sg op) k s (fun _ => iputu s d (uprim_ideal sg op (u a) c)))
  | IUPrimObs op sg k tb c a => Some (with_form (uprim_obs_fns sg op) k s (fun _ =>
      z <- prim_obs_ideal op (u a) c ;; Ok (s, ONum z)))
  | IUPrimDivRem e sg k tb c d a => Some (with_form (uprim_div_rem_fns e sg) k s (fun _ =>
      over c (z <- natural (if e then ediv (u a) c else Z.quot (u a) c) ;;
              Ok (mkIstate (setv u d z) x, ONum (if e then emod (u a) c else Z.rem (u a) c)))))
  | II2 op k d a b => Some (with_form (ibin_fns op) k s (fun _ => iputi s d (ibin_ideal op (x a) (x b))))
  | II1 op k d a => Some (with_form (iun_fns op) k s (fun _ => iputi s d (iun_ideal op (x a))))
  | IIDivRem e k q r a b => Some (with_form (idiv_rem_fns e) k s (fun _ =>
      over (x b) (Ok (if e then iseti2 s q r (ediv (x a) (x b)) (emod (x a) (x b))
                      else iseti2 s q r (Z.quot (x a) (x b)) (Z.rem (x a) (x b)), ONone))))
  | IIShl k d a n => Some (with_form [tt; tt; tt] k s (fun _ => iputi s d (ifits (x a * 2 ^ n))))
  | IIShr k d a n => Some (with_form [tt; tt; tt] k s (fun _ => iputi s d (Ok (x a / 2 ^ n))))
  | IIPow d a n => Some (iputi s d (ifits (x a ^ n)))
  | IICloneFrom d a => Some (iputi s d (Ok (x a)))
  | IIConst sg tb c d => Some (iputi s d (Ok c))
  | IIFromU d a => Some (iputi s d (Ok (u a)))
  | IIFromURef d a => Some (iputi s d (Ok (u a)))
  | IIPrim op sg k tb c d a => Some (with_form (iprim_fns sg op) k s (fun _ => iputi s d (iprim_ideal op (x a) c)))
  | IIPrimObs op sg k tb c a => Some (with_form (iprim_obs_fns sg op) k s (fun _ =>
      z <- prim_obs_ideal op (x a) c ;; Ok (s, ONum z)))
  | IIPrimDivRem e sg k tb c d a => Some (with_form (iprim_div_rem_fns e sg) k s (fun _ =>
      over c (Ok (mkIstate u (setv x d (if e then ediv (x a) c else Z.quot (x a) c)),
                  ONum (if e then emod (x a) c else Z.rem (x a) c)))))
  | IIPrimDivRem2 k tb c q r a => Some (with_form [tt; tt] k s (fun _ =>
      over c (Ok (iseti2 s q r (Z.quot (x a) c) (Z.rem (x a) c), ONone))))
  | OUCmp a b => Some (Ok (s, OOrd (u a ?= u b)))
  | OUEq a b => Some (Ok (s, OBool (u a =? u b)))
  | OUBit a n => Some (Ok (s, OBool (Z.testbit (u a) n)))
  | OUTrailingZeros a => Some (Ok (s, OOpt (itz (u a))))
  | OUBitLen a => Some (Ok (s, ONum (ibitlen (u a))))
  | OUIsPow2 a => Some (Ok (s, OBool (u a =? 2 ^ Z.log2 (u a))))
  | OUBytes be a => Some (Ok (s, OBytes (if be then rev (ibytes (u a)) else ibytes (u a))))
  | OUPrim sg tb a => Some (Ok (s, OOpt (in_prim sg tb (u a))))
  | OICmp a b => Some (Ok (s, OOrd (x a ?= x b)))
  | OIEq a b => Some (Ok (s, OBool (x a =? x b)))
  | OITrailingZeros a => Some (Ok (s, OOpt (itz (x a))))
  | OIPrim sg tb a => Some (Ok (s, OOpt (in_prim sg tb (x a))))
  end.

Fixpoint irun (n : nat) (c : client) (tr : list obs) (s : istate) : option (res (list obs * istate)) :=
  match n with
  | O => Some (Ok (tr, s))
  | S n => match c tr with
           | None => Some (Ok (tr, s))
           | Some i => match istep i s with
                       | None => None
                       | Some (Panic p) => Some (Panic p)
                       | Some (Ok (s, o)) => irun n c (o :: tr) s
                       end
           end
  end.

(** What Rust's types already ensure: shift amounts, bit numbers and exponents
    are usize, primitives are in the range of their type, bytes are bytes. *)
Definition instr_ok (i : instr) : Prop :=
  match i with
  | IUShl _ _ _ n | IUShr _ _ _ n | IIShl _ _ _ n | IIShr _ _ _ n | IUSetBit _ n | IUClearBit _ n
  | IUPow _ _ n | IIPow _ _ n | OUBit _ n => 0 <= n < 2 ^ ubits
  | IUConst tb c _ => prim_bits tb /\ prim_range false tb c
  | IUConstSigned tb c _ => prim_bits tb /\ prim_range true tb c
  | IUBytes _ bs _ => digits_ok 256 bs
  | IUPrim _ sg _ tb c _ _ | IUPrimObs _ sg _ tb c _ | IUPrimDivRem _ sg _ tb c _ _
  | IIPrim _ sg _ tb c _ _ | IIPrimObs _ sg _ tb c _ | IIPrimDivRem _ sg _ tb c _ _
  | IIConst sg tb c _ => prim_bits tb /\ prim_range sg tb c
  | IIPrimDivRem2 _ tb c _ _ _ => prim_bits tb /\ prim_range false tb c
  | OUPrim _ tb _ | OIPrim _ tb _ => prim_bits tb
  | _ => True
  end.

Definition client_ok (c : client) : Prop := forall tr i, c tr = Some i -> instr_ok i.

(** The variables of the program hold the numbers of the ideal machine, in
    well-formed representations. *)
Definition holds (st : state) (s : istate) : Prop :=
  (forall n, ubig_ok (us st n) /\ uval (us st n) = uz s n) /\
  (forall n, ibig_ok (is st n) /\ ival (is st n) = iz s n).

(** Every variable is well-formed. *)
Definition well_formed (st : state) : Prop := (forall n, ubig_ok (us st n)) /\ (forall n, ibig_ok (is st n)).

(** One word that is a word, or at least two words without a leading zero. *)
Definition canonical (u : ubig) : Prop :=
  match u with
  | Small w => 0 <= w < 2 ^ wbits
  | Large b => (2 <= length (words b))%nat /\ last (words b) 0 <> 0 /\ Forall (fun w => 0 <= w < 2 ^ wbits) (words b)
  end.

(** All variables are zero. *)
Definition start : state := mkState (fun _ => Small 0) (fun _ => mkIBig Positive (Small 0)).

(** A number on the heap has at most MAX_LEN words, and its buffer holds them
    with not more than a quarter plus four words to spare, unless an allocation of
    an eighth plus two words above its length gave more. *)
Definition compact (u : ubig) : Prop :=
  match u with
  | Small _ => True
  | Large b => len (words b) <= MAX_LEN /\
      len (words b) <= cap b /\
      (cap b <= len (words b) + len (words b) / 4 + 4 /\ cap b <= MAX_LEN + 4 \/
       cap b <= vec_cap (Z.min (len (words b) + len (words b) / 8 + 2) (MAX_LEN + 4)))
  end.

(** Not more than a quarter plus four words to spare. *)
Definition within_quarter (u : ubig) : Prop :=
  match u with
  | Small _ => True
  | Large b => len (words b) <= MAX_LEN /\
      len (words b) <= cap b <= len (words b) + len (words b) / 4 + 4 /\ cap b <= MAX_LEN + 4
  end.

End Ideal.
