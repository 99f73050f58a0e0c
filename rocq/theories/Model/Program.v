(** Clients of the library: programs that keep numbers in variables and call the
    public functions in any order, deciding what to do next by what they have
    observed so far. This file has no counterpart in /repo; every instruction
    runs one function of the model, and the functions cite their sources.

    The variables are two unbounded arrays, one of UBig and one of IBig. Rust
    forbids reading a variable after it has been moved into a by-value operation;
    here it keeps its old value, so programs here can do more, not less. *)
From Verif Require Import Model.Base Model.Words Model.Memory Model.FastDivide Model.Mul Model.Div Model.Buffer
  Model.UBig Model.IBig Model.Convert Model.AddOps Model.MulOps Model.ShiftOps Model.Bits Model.DivOps Model.PrimOps
  Model.Gcd Model.Pow.

(** Operations on two UBig: src/add_ops.rs:18-163, src/mul_ops.rs:20-83, src/bits.rs:293-631,
    src/div_ops.rs:21-209, src/gcd.rs:6-175. *)
Inductive ubin := UAdd | USub | UMul | UAnd | UOr | UXor | UAndNot | UDiv | URem | UGcd.

(** Operations on two IBig: src/add_ops.rs:165-291, src/mul_ops.rs:85-139, src/bits.rs:667-924,
    src/div_ops.rs:409-531, 601-705, src/gcd.rs:177-222. *)
Inductive ibin := IAdd | ISub | IMul | IAnd | IOr | IXor | IAndNot | IDiv | IRem | IDivE | IRemE | IGcd.

(** Operations on a number and a primitive integer: src/add_ops.rs:293-526, src/mul_ops.rs:172-299, src/bits.rs:949-1356,
    src/div_ops.rs:763-1277. *)
Inductive prim_op := PAdd | PSub | PSubFrom | PMul | PAnd | POr | PXor | PAndNot | PDiv | PRem | PDivE | PRemE.

(** Operations on one UBig: src/ubig.rs:121-140, src/bits.rs:234-256. *)
Inductive uun := UClone | UNextPow.
(** Operations on one IBig: src/ibig.rs:24, src/sign.rs:31-93, src/bits.rs:649-665. *)
Inductive iun := IClone | INeg | IAbs | ISignum | INot.

(** What a program can observe.  No counterpart in /repo. *)
Inductive obs :=
| ONone
| ONum (z : Z)
| OOpt (o : option Z)
| OBool (b : bool)
| OOrd (c : comparison)
| OBytes (bs : list Z).

(** [k] selects the form of the operation: by value, by reference, assignment.
    [d], [q], [r] are the variables written and [a], [b] the variables read.
    No counterpart in /repo. *)
Inductive instr :=
| IU2 (op : ubin) (k d a b : nat)
| IU1 (op : uun) (k d a : nat)
| IUDivRem (k q r a b : nat)
| IUShl (k d a : nat) (n : Z)
| IUShr (k d a : nat) (n : Z)
| IUSetBit (d : nat) (n : Z)
| IUClearBit (d : nat) (n : Z)
| IUPow (d a : nat) (n : Z)
| IUCloneFrom (d a : nat)
| IUConst (tb x : Z) (d : nat)
| IUConstSigned (tb x : Z) (d : nat)
| IUBytes (be : bool) (bs : list Z) (d : nat)
| IUFromI (d a : nat)
| IUFromIRef (d a : nat)
| IUAbs (k d a : nat)
| IUPrim (op : prim_op) (sg : bool) (k : nat) (tb x : Z) (d a : nat)
| IUPrimObs (op : prim_op) (sg : bool) (k : nat) (tb x : Z) (a : nat)
| IUPrimDivRem (euclid sg : bool) (k : nat) (tb x : Z) (d a : nat)
| II2 (op : ibin) (k d a b : nat)
| II1 (op : iun) (k d a : nat)
| IIDivRem (euclid : bool) (k q r a b : nat)
| IIShl (k d a : nat) (n : Z)
| IIShr (k d a : nat) (n : Z)
| IIPow (d a : nat) (n : Z)
| IICloneFrom (d a : nat)
| IIConst (sg : bool) (tb x : Z) (d : nat)
| IIFromU (d a : nat)
| IIFromURef (d a : nat)
| IIPrim (op : prim_op) (sg : bool) (k : nat) (tb x : Z) (d a : nat)
| IIPrimObs (op : prim_op) (sg : bool) (k : nat) (tb x : Z) (a : nat)
| IIPrimDivRem (euclid sg : bool) (k : nat) (tb x : Z) (d a : nat)
| IIPrimDivRem2 (k : nat) (tb x : Z) (q r a : nat)
| OUCmp (a b : nat)
| OUEq (a b : nat)
| OUBit (a : nat) (n : Z)
| OUTrailingZeros (a : nat)
| OUBitLen (a : nat)
| OUIsPow2 (a : nat)
| OUBytes (be : bool) (a : nat)
| OUPrim (sg : bool) (tb : Z) (a : nat)
| OICmp (a b : nat)
| OIEq (a b : nat)
| OITrailingZeros (a : nat)
| OIPrim (sg : bool) (tb : Z) (a : nat).

(** A program: what it does next depends on everything observed so far.
    No counterpart in /repo. *)
Definition client := list obs -> option instr.

(** Assignment to a variable.  No counterpart in /repo. *)
Definition setv {T} (f : nat -> T) (n : nat) (x : T) : nat -> T := fun m => if (m =? n)%nat then x else f m.

Section Program.
Context {A : Arch}.

(** All forms of an operation: src/add_ops.rs:18-163, src/mul_ops.rs:20-83, src/bits.rs:293-631,
    src/div_ops.rs:21-209, src/gcd.rs:6-175. *)
Definition ubin_fns (op : ubin) : list (ubig -> ubig -> res ubig) :=
  match op with
  | UAdd => [ubig_add_vv; ubig_add_vr; ubig_add_rv; ubig_add_rr; ubig_add_assign_v; ubig_add_assign_r]
  | USub => [ubig_sub_vv; ubig_sub_vr; ubig_sub_rv; ubig_sub_rr; ubig_sub_assign_v; ubig_sub_assign_r]
  | UMul => [ubig_mul_vv; ubig_mul_vr; ubig_mul_rv; ubig_mul_rr; ubig_mul_assign_v; ubig_mul_assign_r]
  | UAnd => [ubig_and_vv; ubig_and_vr; ubig_and_rv; ubig_and_rr; ubig_and_assign_v; ubig_and_assign_r]
  | UOr => [ubig_or_vv; ubig_or_vr; ubig_or_rv; ubig_or_rr; ubig_or_assign_v; ubig_or_assign_r]
  | UXor => [ubig_xor_vv; ubig_xor_vr; ubig_xor_rv; ubig_xor_rr; ubig_xor_assign_v; ubig_xor_assign_r]
  | UAndNot => [ubig_and_not_vv; ubig_and_not_vr; ubig_and_not_rv; ubig_and_not_rr]
  | UDiv => [ubig_div_vv; ubig_div_vr; ubig_div_rv; ubig_div_rr; ubig_div_assign_v; ubig_div_assign_r;
             ubig_div_euclid_vv; ubig_div_euclid_vr; ubig_div_euclid_rv; ubig_div_euclid_rr]
  | URem => [ubig_rem_vv; ubig_rem_vr; ubig_rem_rv; ubig_rem_rr; ubig_rem_assign_v; ubig_rem_assign_r;
             ubig_rem_euclid_vv; ubig_rem_euclid_vr; ubig_rem_euclid_rv; ubig_rem_euclid_rr]
  | UGcd => [ubig_gcd]
  end.

(** All forms of an operation: src/add_ops.rs:165-291, src/mul_ops.rs:85-139, src/bits.rs:667-924,
    src/div_ops.rs:409-531, 601-705, src/gcd.rs:177-222. *)
Definition ibin_fns (op : ibin) : list (ibig -> ibig -> res ibig) :=
  match op with
  | IAdd => [ibig_add_vv; ibig_add_vr; ibig_add_rv; ibig_add_rr; ibig_add_assign_v; ibig_add_assign_r]
  | ISub => [ibig_sub_vv; ibig_sub_vr; ibig_sub_rv; ibig_sub_rr; ibig_sub_assign_v; ibig_sub_assign_r]
  | IMul => [ibig_mul_vv; ibig_mul_vr; ibig_mul_rv; ibig_mul_rr; ibig_mul_assign_v; ibig_mul_assign_r]
  | IAnd => [ibig_and_vv; ibig_and_vr; ibig_and_rv; ibig_and_rr; ibig_and_assign_v; ibig_and_assign_r]
  | IOr => [ibig_or_vv; ibig_or_vr; ibig_or_rv; ibig_or_rr; ibig_or_assign_v; ibig_or_assign_r]
  | IXor => [ibig_xor_vv; ibig_xor_vr; ibig_xor_rv; ibig_xor_rr; ibig_xor_assign_v; ibig_xor_assign_r]
  | IAndNot => [ibig_and_not_vv; ibig_and_not_vr; ibig_and_not_rv; ibig_and_not_rr]
  | IDiv => [ibig_div_vv; ibig_div_vr; ibig_div_rv; ibig_div_rr; ibig_div_assign_v; ibig_div_assign_r]
  | IRem => [ibig_rem_vv; ibig_rem_vr; ibig_rem_rv; ibig_rem_rr; ibig_rem_assign_v; ibig_rem_assign_r]
  | IDivE => [ibig_div_euclid_vv; ibig_div_euclid_vr; ibig_div_euclid_rv; ibig_div_euclid_rr]
  | IRemE => [ibig_rem_euclid_vv; ibig_rem_euclid_vr; ibig_rem_euclid_rv; ibig_rem_euclid_rr]
  | IGcd => [ibig_gcd]
  end.

(** src/div_ops.rs:211-295, 369-407 *)
Definition udiv_rem_fns : list (ubig -> ubig -> res (ubig * ubig)) :=
  [ubig_div_rem_vv; ubig_div_rem_vr; ubig_div_rem_rv; ubig_div_rem_rr;
   ubig_div_rem_euclid_vv; ubig_div_rem_euclid_vr; ubig_div_rem_euclid_rv; ubig_div_rem_euclid_rr].

(** src/div_ops.rs:533-599, 707-761 *)
Definition idiv_rem_fns (euclid : bool) : list (ibig -> ibig -> res (ibig * ibig)) :=
  if euclid then [ibig_div_rem_euclid_vv; ibig_div_rem_euclid_vr; ibig_div_rem_euclid_rv; ibig_div_rem_euclid_rr]
  else [ibig_div_rem_vv; ibig_div_rem_vr; ibig_div_rem_rv; ibig_div_rem_rr].

(** src/ubig.rs:121-140, src/bits.rs:234-256 *)
Definition uun_fns (op : uun) : list (ubig -> res ubig) :=
  match op with
  | UClone => [ubig_clone]
  | UNextPow => [next_power_of_two_v; next_power_of_two_r]
  end.

(** src/ibig.rs:24, src/sign.rs:31-93, src/bits.rs:649-665 *)
Definition iun_fns (op : iun) : list (ibig -> res ibig) :=
  match op with
  | IClone => [ibig_clone]
  | INeg => [fun x => Ok (ibig_neg x); ibig_neg_ref]
  | IAbs => [fun x => Ok (ibig_abs x); ibig_abs_ref]
  | ISignum => [signum]
  | INot => [ibig_not_v; ibig_not_r]
  end.

(** src/sign.rs:95-113 *)
Definition uabs_fns : list (ibig -> res ubig) := [fun x => Ok (unsigned_abs x); unsigned_abs_ref].

(** src/add_ops.rs:293-431, src/mul_ops.rs:172-252, src/bits.rs:949-1189,
    src/div_ops.rs:763-1066. *)
Definition uprim_fns (sg : bool) (op : prim_op) : list (Z -> ubig -> Z -> res ubig) :=
  match op, sg with
  | PAdd, false => [ubig_add_unsigned; ubig_add_ref_unsigned; ubig_add_assign_unsigned]
  | PSub, false => [ubig_sub_unsigned; ubig_sub_ref_unsigned; ubig_sub_assign_unsigned]
  | PMul, false => [ubig_mul_unsigned; ubig_mul_ref_unsigned; ubig_mul_assign_unsigned]
  | POr, false => [ubig_or_unsigned; ubig_or_ref_unsigned; ubig_or_assign_unsigned]
  | PXor, false => [ubig_xor_unsigned; ubig_xor_ref_unsigned; ubig_xor_assign_unsigned]
  | PAndNot, false => [ubig_and_not_unsigned; ubig_and_not_ref_unsigned]
  | PAnd, false => [ubig_and_assign_unsigned]
  | PDiv, false => [ubig_div_unsigned; ubig_div_ref_unsigned; ubig_div_assign_unsigned;
                    ubig_div_euclid_unsigned; ubig_div_euclid_ref_unsigned]
  | PRem, false => [ubig_rem_assign_unsigned]
  | PAdd, true => [ubig_add_signed; ubig_add_ref_signed; ubig_add_assign_signed]
  | PSub, true => [ubig_sub_signed; ubig_sub_ref_signed; ubig_sub_assign_signed]
  | PMul, true => [ubig_mul_signed; ubig_mul_ref_signed; ubig_mul_assign_signed]
  | PAnd, true => [ubig_and_signed; ubig_and_ref_signed; ubig_and_assign_signed]
  | POr, true => [ubig_or_signed; ubig_or_ref_signed; ubig_or_assign_signed]
  | PXor, true => [ubig_xor_signed; ubig_xor_ref_signed; ubig_xor_assign_signed]
  | PAndNot, true => [ubig_and_not_signed; ubig_and_not_ref_signed]
  | PDiv, true => [ubig_div_signed; ubig_div_ref_signed; ubig_div_assign_signed]
  | PDivE, true => [ubig_div_euclid_signed; ubig_div_euclid_ref_signed]
  | PRem, true => [ubig_rem_assign_signed]
  | _, _ => []
  end.

(** Operations whose result is a primitive: src/bits.rs:949-1189,
    src/div_ops.rs:763-1066. *)
Definition uprim_obs_fns (sg : bool) (op : prim_op) : list (Z -> ubig -> Z -> res Z) :=
  match op, sg with
  | PAnd, false => [ubig_and_unsigned; ubig_and_ref_unsigned]
  | PRem, false => [ubig_rem_unsigned; ubig_rem_ref_unsigned]
  | PRemE, false => [ubig_rem_euclid_unsigned; ubig_rem_euclid_ref_unsigned]
  | PRem, true => [ubig_rem_signed; ubig_rem_ref_signed]
  | PRemE, true => [ubig_rem_euclid_signed; ubig_rem_euclid_ref_signed]
  | _, _ => []
  end.

(** src/div_ops.rs:763-1066 *)
Definition uprim_div_rem_fns (euclid sg : bool) : list (Z -> ubig -> Z -> res (ubig * Z)) :=
  match euclid, sg with
  | false, false => [ubig_div_rem_unsigned; ubig_div_rem_ref_unsigned]
  | true, false => [ubig_div_rem_euclid_unsigned; ubig_div_rem_euclid_ref_unsigned]
  | false, true => [ubig_div_rem_signed; ubig_div_rem_ref_signed]
  | true, true => [ubig_div_rem_euclid_signed; ubig_div_rem_euclid_ref_signed]
  end.

(** src/add_ops.rs:433-526, src/mul_ops.rs:254-299, src/bits.rs:1191-1356,
    src/div_ops.rs:1068-1277. *)
Definition iprim_fns (sg : bool) (op : prim_op) : list (Z -> ibig -> Z -> res ibig) :=
  match op with
  | PAdd => [ibig_add_primitive sg; ibig_add_ref_primitive sg; ibig_add_assign_primitive sg]
  | PSub => [ibig_sub_primitive sg; ibig_sub_ref_primitive sg; ibig_sub_assign_primitive sg]
  | PSubFrom => [ibig_sub_from_primitive sg; ibig_sub_ref_from_primitive sg]
  | PMul => [ibig_mul_primitive sg; ibig_mul_ref_primitive sg; ibig_mul_assign_primitive sg]
  | POr => [ibig_or_primitive sg; ibig_or_ref_primitive sg; ibig_or_assign_primitive sg]
  | PXor => [ibig_xor_primitive sg; ibig_xor_ref_primitive sg; ibig_xor_assign_primitive sg]
  | PAndNot => [ibig_and_not_primitive sg; ibig_and_not_ref_primitive sg]
  | PAnd => ibig_and_assign_primitive sg :: (if sg then [ibig_and_signed; ibig_and_ref_signed] else [])
  | PDiv => [ibig_div_primitive sg; ibig_div_ref_primitive sg; ibig_div_assign_primitive sg]
  | PDivE => [ibig_div_euclid_primitive sg; ibig_div_euclid_ref_primitive sg]
  | PRem => ibig_rem_assign_primitive sg :: (if sg then [] else [ibig_rem_unsigned; ibig_rem_ref_unsigned])
  | PRemE => []
  end.

(** src/bits.rs:1191-1356, src/div_ops.rs:1068-1277 *)
Definition iprim_obs_fns (sg : bool) (op : prim_op) : list (Z -> ibig -> Z -> res Z) :=
  match op, sg with
  | PAnd, false => [ibig_and_unsigned; ibig_and_ref_unsigned]
  | PRem, true => [ibig_rem_signed; ibig_rem_ref_signed]
  | PRemE, _ => [ibig_rem_euclid_primitive sg; ibig_rem_euclid_ref_primitive sg]
  | _, _ => []
  end.

(** src/div_ops.rs:1068-1277 *)
Definition iprim_div_rem_fns (euclid sg : bool) : list (Z -> ibig -> Z -> res (ibig * Z)) :=
  match euclid, sg with
  | true, _ => [ibig_div_rem_euclid_primitive sg; ibig_div_rem_euclid_ref_primitive sg]
  | false, true => [ibig_div_rem_signed; ibig_div_rem_ref_signed]
  | false, false => []
  end.

(** src/div_ops.rs:1068-1277 *)
Definition iprim_div_rem2_fns : list (Z -> ibig -> Z -> res (ibig * ibig)) :=
  [ibig_div_rem_unsigned; ibig_div_rem_ref_unsigned].

(** The variables.  No counterpart in /repo. *)
Record state := mkState { us : nat -> ubig; is : nat -> ibig }.

(** No counterpart in /repo. *)
Definition setu (st : state) (d : nat) (u : ubig) : state := mkState (setv (us st) d u) (is st).
(** No counterpart in /repo. *)
Definition seti (st : state) (d : nat) (x : ibig) : state := mkState (us st) (setv (is st) d x).

(** The result is stored.  No counterpart in /repo. *)
Definition putu (st : state) (d : nat) (r : res ubig) : res (state * obs) :=
  u <- r ;; Ok (setu st d u, ONone).
(** No counterpart in /repo. *)
Definition puti (st : state) (d : nat) (r : res ibig) : res (state * obs) :=
  x <- r ;; Ok (seti st d x, ONone).
(** The result is observed.  No counterpart in /repo. *)
Definition look (st : state) {T} (k : T -> obs) (r : res T) : res (state * obs) :=
  x <- r ;; Ok (st, k x).
(** A conversion that can fail: the program sees whether it did.  No counterpart in /repo. *)
Definition tryu (st : state) (d : nat) (r : res (option ubig)) : res (state * obs) :=
  o <- r ;; match o with Some u => Ok (setu st d u, OBool true) | None => Ok (st, OBool false) end.

(** [with_form fns k st f] runs the [k]-th form; there is nothing to run when
    there are fewer forms.  No counterpart in /repo. *)
Definition with_form {T S} (fns : list T) (k : nat) (st : S) (f : T -> res (S * obs)) : res (S * obs) :=
  match nth_error fns k with Some g => f g | None => Ok (st, ONone) end.

(** One instruction calls one function of the library.  No counterpart in /repo. *)
Definition step (i : instr) (st : state) : res (state * obs) :=
  let u := us st in let x := is st in
  match i with
  | IU2 op k d a b => with_form (ubin_fns op) k st (fun f => putu st d (f (u a) (u b)))
  | IU1 op k d a => with_form (uun_fns op) k st (fun f => putu st d (f (u a)))
  | IUDivRem k q r a b => with_form udiv_rem_fns k st (fun f =>
      '(y, z) <- f (u a) (u b) ;; Ok (setu (setu st q y) r z, ONone))
  | IUShl k d a n => with_form [ubig_shl_v; ubig_shl_r; ubig_shl_assign] k st (fun f => putu st d (f (u a) n))
  | IUShr k d a n => with_form [ubig_shr_v; ubig_shr_r; ubig_shr_assign] k st (fun f => putu st d (f (u a) n))
  | IUSetBit d n => putu st d (set_bit (u d) n)
  | IUClearBit d n => putu st d (clear_bit (u d) n)
  | IUPow d a n => putu st d (ubig_pow (u a) n)
  | IUCloneFrom d a => putu st d (ubig_clone_from (u d) (u a))
  | IUConst tb c d => putu st d (ubig_from_unsigned tb c)
  | IUConstSigned tb c d => tryu st d (ubig_try_from_signed tb c)
  | IUBytes be bs d => putu st d (if be then from_be_bytes bs else from_le_bytes bs)
  | IUFromI d a => tryu st d (Ok (ubig_try_from_ibig (x a)))
  | IUFromIRef d a => tryu st d (ubig_try_from_ibig_ref (x a))
  | IUAbs k d a => with_form uabs_fns k st (fun f => putu st d (f (x a)))
  | IUPrim op sg k tb c d a => with_form (uprim_fns sg op) k st (fun f => putu st d (f tb (u a) c))
  | IUPrimObs op sg k tb c a => with_form (uprim_obs_fns sg op) k st (fun f => look st ONum (f tb (u a) c))
  | IUPrimDivRem e sg k tb c d a => with_form (uprim_div_rem_fns e sg) k st (fun f =>
      '(y, r) <- f tb (u a) c ;; Ok (setu st d y, ONum r))
  | II2 op k d a b => with_form (ibin_fns op) k st (fun f => puti st d (f (x a) (x b)))
  | II1 op k d a => with_form (iun_fns op) k st (fun f => puti st d (f (x a)))
  | IIDivRem e k q r a b => with_form (idiv_rem_fns e) k st (fun f =>
      '(y, z) <- f (x a) (x b) ;; Ok (seti (seti st q y) r z, ONone))
  | IIShl k d a n => with_form [ibig_shl_v; ibig_shl_r; ibig_shl_assign] k st (fun f => puti st d (f (x a) n))
  | IIShr k d a n => with_form [ibig_shr_v; ibig_shr_r; ibig_shr_assign] k st (fun f => puti st d (f (x a) n))
  | IIPow d a n => puti st d (ibig_pow (x a) n)
  | IICloneFrom d a => puti st d (ibig_clone_from (x d) (x a))
  | IIConst sg tb c d => puti st d (if sg then ibig_from_signed tb c else ibig_from_unsigned tb c)
  | IIFromU d a => puti st d (Ok (ibig_from_ubig (u a)))
  | IIFromURef d a => puti st d (ibig_from_ubig_ref (u a))
  | IIPrim op sg k tb c d a => with_form (iprim_fns sg op) k st (fun f => puti st d (f tb (x a) c))
  | IIPrimObs op sg k tb c a => with_form (iprim_obs_fns sg op) k st (fun f => look st ONum (f tb (x a) c))
  | IIPrimDivRem e sg k tb c d a => with_form (iprim_div_rem_fns e sg) k st (fun f =>
      '(y, r) <- f tb (x a) c ;; Ok (seti st d y, ONum r))
  | IIPrimDivRem2 k tb c q r a => with_form iprim_div_rem2_fns k st (fun f =>
      '(y, z) <- f tb (x a) c ;; Ok (seti (seti st q y) r z, ONone))
  | OUCmp a b => look st OOrd (ubig_cmp (u a) (u b))
  | OUEq a b => look st OBool (Ok (ubig_eqb (u a) (u b)))
  | OUBit a n => look st OBool (bit (u a) n)
  | OUTrailingZeros a => look st OOpt (ubig_trailing_zeros (u a))
  | OUBitLen a => look st ONum (ubig_bit_len (u a))
  | OUIsPow2 a => look st OBool (is_power_of_two (u a))
  | OUBytes be a => look st OBytes (if be then to_be_bytes (u a) else to_le_bytes (u a))
  | OUPrim sg tb a => look st OOpt (if sg then ubig_try_to_signed tb (u a) else ubig_try_to_unsigned tb (u a))
  | OICmp a b => look st OOrd (ibig_cmp (x a) (x b))
  | OIEq a b => look st OBool (Ok (ibig_eqb (x a) (x b)))
  | OITrailingZeros a => look st OOpt (ibig_trailing_zeros (x a))
  | OIPrim sg tb a => look st OOpt (if sg then ibig_try_to_signed tb (x a) else ibig_try_to_unsigned tb (x a))
  end.

(** At most [n] instructions of the program. The trace has the latest observation first.
    No counterpart in /repo. *)
Fixpoint run (n : nat) (c : client) (tr : list obs) (st : state) : res (list obs * state) :=
  match n with
  | O => Ok (tr, st)
  | S n => match c tr with
           | None => Ok (tr, st)
           | Some i => '(st, o) <- step i st ;; run n c (o :: tr) st
           end
  end.

End Program.
