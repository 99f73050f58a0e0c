(** The abstract machine for the whole library: numbers are integers, a ring is an
    identity and a modulus, an element is an identity, a modulus and a residue.
    [allowed c s o] says that the call [c] in state [s] may have the outcome [o]. *)
From Verif Require Import Model.Base Model.Buffer Model.UBig Model.IBig Model.Parse Model.Fmt Model.Modular Model.ModularFmt Model.Program Model.Client
  Spec.Val Spec.Num Spec.Prim Spec.Digits Spec.Text Spec.FmtText Spec.ModularText Spec.Float Spec.Ideal Spec.ParseResult Spec.Modular.

(** [ring_at]: identity and modulus. [elem_at]: identity of the ring, modulus, residue. *)
Record aworld := mkA { num_of : istate; ring_at : nat -> option (Z * Z); elem_at : nat -> option (Z * Z * Z); next : Z }.

Definition aoutcome := res (aworld * seen).

Definition aset_u (s : aworld) (d : nat) (v : Z) : aworld :=
  mkA (mkIstate (setv (uz (num_of s)) d v) (iz (num_of s))) (ring_at s) (elem_at s) (next s).
Definition aset_i (s : aworld) (d : nat) (v : Z) : aworld :=
  mkA (mkIstate (uz (num_of s)) (setv (iz (num_of s)) d v)) (ring_at s) (elem_at s) (next s).
Definition aset_m (s : aworld) (d : nat) (m : Z * Z * Z) : aworld :=
  mkA (num_of s) (ring_at s) (setv (elem_at s) d (Some m)) (next s).

(** The text after an optional sign. *)
Definition after_plus (s : list Z) : list Z :=
  match s with c :: t => if c =? 43 then t else s | [] => [] end.
Definition after_sign (s : list Z) : Z * list Z :=
  match s with c :: t => if c =? 43 then (1, t) else if c =? 45 then (-1, t) else (1, s) | [] => (1, []) end.

(** The text without leading zeros. *)
Fixpoint sans_zeros (s : list Z) : list Z :=
  match s with c :: t => if c =? 48 then sans_zeros t else s | [] => [] end.

(** Choice when the variable is empty: nothing happens. *)
Definition given {T} (x : option T) (s : aworld) (o : aoutcome) (k : T -> Prop) : Prop :=
  match x with Some v => k v | None => o = Ok (s, Base ONone) end.

Section Abstract.
Context {A : Arch}.

(** [t] is read in radix [r]; [good] is what happens with the value.  A text that is
    not a numeral is an error, but if it is longer than every representable number the
    library may take it for one that is too large. *)
Definition reading (r : Z) (t : list Z) (s : aworld) (good : Z -> aoutcome) (o : aoutcome) : Prop :=
  (exists v, numeral r t v /\ o = good v) \/
  (t = [] /\ o = Ok (s, Error NoDigits)) \/
  (t <> [] /\ (forall v, ~ numeral r t v) /\
    (o = Ok (s, Error InvalidDigit) \/
     (o = Panic NumberTooLarge /\ MAXV <= r ^ (Z.of_nat (length (sans_zeros t)) - 1)))).

Definition store_u (s : aworld) (d : nat) (r : res Z) (x : seen) : aoutcome := v <- r ;; Ok (aset_u s d v, x).
Definition store_i (s : aworld) (d : nat) (r : res Z) (x : seen) : aoutcome := v <- r ;; Ok (aset_i s d v, x).

Definition valid_radix (radix : Z) : bool := (2 <=? radix) && (radix <=? 36).

(** The bits that the number [v] is shifted by before it is reduced modulo [n], when
    the modulus has more than one word. *)
Definition enters (n v : Z) : bool := (n <? B) || (v * 2 ^ ((- ibitlen n) mod wbits) <? MAXV).

(** The quotient of [x] and [y] modulo [n], with [y] of a ring of modulus [m].  [done] and
    [stopped] tell whether it may succeed, and whether it may find no memory for the
    product. *)
Definition dividing (s : aworld) (d : nat) (id n x y m : Z) (same done stopped : bool) (o : aoutcome) : Prop :=
  (Z.gcd y m = 1 /\ same = true /\ done = true /\ exists c, 0 <= c < n /\ (c * y) mod n = x mod n /\ o = Ok (aset_m s d (id, n, c), Base ONone)) \/
  (Z.gcd y m = 1 /\ same = true /\ stopped = true /\ o = Panic OutOfMemory) \/
  (Z.gcd y m = 1 /\ same = false /\ o = Panic DifferentRings) \/
  (Z.gcd y m <> 1 /\ o = Panic NonInvertible) \/
  (o = Panic NumberTooLarge /\ MAXV <= 2 * m).

Definition mbin_outcome (op : mbin) (s : aworld) (d : nat) (x y : Z * Z * Z) (o : aoutcome) : Prop :=
  let '(id, n, a) := x in let '(id', n', b) := y in
  let store v := if id =? id' then Ok (aset_m s d (id, n, v mod n), Base ONone) else Panic DifferentRings in
  match op with
  | MAdd => o = store (a + b)
  | MSub => o = store (a - b)
  | MMul => o = if (id =? id') && negb (room_for_mul n) then Panic OutOfMemory else store (a * b)
  | MDiv => dividing s d id n a b n' (id =? id') (room_for_mul n) (negb (room_for_mul n)) o
  end.

(** Small Bezout coefficients. *)
Definition bezout (a b x y : Z) : Prop :=
  a * x + b * y = Z.gcd a b /\ Z.abs x < MAXV /\ Z.abs y < MAXV /\
  Z.abs x <= Z.max (Z.abs b) 1 /\ Z.abs y <= Z.max (Z.abs a) 1.

Definition ext_outcome (a b : Z) (good : Z -> Z -> aoutcome) (o : aoutcome) : Prop :=
  (a = 0 /\ b = 0 /\ o = Panic GcdOfZeros) \/
  (~ (a = 0 /\ b = 0) /\ exists x y, bezout a b x y /\ o = good x y) \/
  (o = Panic NumberTooLarge /\
   forall k, 0 <= k -> (2 ^ k | a) -> (2 ^ k | b) -> MAXV * 2 ^ k <= 2 * Z.max (Z.abs a) (Z.abs b)).

(** 64-bit digits that need a buffer of more than MAX_LEN + 4 words are refused. *)
Definition de_outcome (es : list Z) (r : res Z) : res Z :=
  if 64 * Z.of_nat (length es) <=? wbits * (MAX_LEN + 4) then r else Panic NumberTooLarge.

(** The digits are those of [n] to the base 2^64, without leading zeros. *)
Definition serial_of (n : Z) (es : list Z) : Prop :=
  digits_ok (2 ^ 64) es /\ (es = [] \/ last es 0 <> 0) /\ num (2 ^ 64) es = n.

(** The bits of the nearest f64 or f32. *)
Definition float_of (double neg : bool) (n bits : Z) : Prop :=
  if double then rounds_to 53 1024 neg n bits /\ 0 <= bits < 2 ^ 64 else rounds_to 24 128 neg n bits /\ 0 <= bits < 2 ^ 32.

Definition allowed (c : call) (s : aworld) (o : aoutcome) : Prop :=
  let u := uz (num_of s) in let i := iz (num_of s) in
  match c with
  | CBase i =>
      match istep i (num_of s) with
      | Some r => o = ('(st, x) <- r ;; Ok (mkA st (ring_at s) (elem_at s) (next s), Base x))
      | None => (* the calls of clear_bit that are wrong (C18) *)
          match i with IUClearBit d _ => o = Ok (aset_u s d 0, Base ONone) | _ => False end
      end
  | CUParse radix t d =>
      if valid_radix radix then reading radix (after_plus t) s (fun v => store_u s d (fits v) (Base (OBool true))) o
      else o = Panic InvalidRadix
  | CIParse radix t d =>
      if valid_radix radix then
        let '(sg, t) := after_sign t in reading radix t s (fun v => store_i s d (ifits (sg * v)) (Base (OBool true))) o
      else o = Panic InvalidRadix
  | CUParsePrefix t d =>
      exists r body, prefixed (after_plus t) r body /\ reading r body s (fun v => store_u s d (fits v) (Base (OBool true))) o
  | CIParsePrefix t d =>
      let '(sg, t) := after_sign t in
      exists r body, prefixed t r body /\ reading r body s (fun v => store_i s d (ifits (sg * v)) (Base (OBool true))) o
  | CUText t f a => exists x, trait_text t f (u a) x /\ o = Ok (s, Text x)
  | CIText t f a => exists x, trait_text t f (i a) x /\ o = Ok (s, Text x)
  | CUTextRadix radix f a =>
      if valid_radix radix then exists x, shows (Ok x) f radix (f_alternate f) [] (u a) /\ o = Ok (s, Text x)
      else o = Panic InvalidRadix
  | CITextRadix radix f a =>
      if valid_radix radix then exists x, shows (Ok x) f radix (f_alternate f) [] (i a) /\ o = Ok (s, Text x)
      else o = Panic InvalidRadix
  | CUFloat double a => exists bits, float_of double false (u a) bits /\ o = Ok (s, Base (ONum bits))
  | CIFloat double a => exists bits, float_of double (i a <? 0) (Z.abs (i a)) bits /\ o = Ok (s, Base (ONum bits))
  | CUExtGcd g x y a b => ext_outcome (u a) (u b) (fun vx vy =>
      Ok (aset_i (aset_i (aset_u s g (Z.gcd (u a) (u b))) x vx) y vy, Base ONone)) o
  | CIExtGcd g x y a b => ext_outcome (i a) (i b) (fun vx vy =>
      Ok (aset_i (aset_i (aset_i s g (Z.gcd (i a) (i b))) x vx) y vy, Base ONone)) o
  | CUSer a => exists es, serial_of (u a) es /\ o = Ok (s, Serial Positive (Z.of_nat (length es)) es)
  | CISer a => exists es, serial_of (Z.abs (i a)) es /\
      o = Ok (s, Serial (if i a <? 0 then Negative else Positive) (Z.of_nat (length es)) es)
  | CUDe _ es d => o = store_u s d (de_outcome es (fits (num (2 ^ 64) es))) (Base ONone)
  | CIDe sg _ es d =>
      o = store_i s d (de_outcome es (ifits (match sg with Positive => num (2 ^ 64) es | Negative => - num (2 ^ 64) es end))) (Base ONone)
  | CRing r a =>
      o = if u a =? 0 then Panic ZeroModulus
          else Ok (mkA (num_of s) (setv (ring_at s) r (Some (next s, u a))) (elem_at s) (next s + 1), Base ONone)
  | CRingModulus d r => given (ring_at s r) s o (fun '(_, n) => o = Ok (aset_u s d n, Base ONone))
  | CRingEq r q => given (ring_at s r) s o (fun '(id, _) => given (ring_at s q) s o (fun '(id', _) =>
      o = Ok (s, Base (OBool (id =? id')))))
  | CRingText t f r => given (ring_at s r) s o (fun '(_, n) => exists x, ring_text t f n (Ok x) /\ o = Ok (s, Text x))
  | CMFromU _ m r a => given (ring_at s r) s o (fun '(id, n) =>
      o = if enters n (u a) then Ok (aset_m s m (id, n, u a mod n), Base ONone) else Panic NumberTooLarge)
  | CMFromI _ m r a => given (ring_at s r) s o (fun '(id, n) =>
      o = if enters n (Z.abs (i a)) then Ok (aset_m s m (id, n, i a mod n), Base ONone) else Panic NumberTooLarge)
  | CMFromPrim _ _ x m r => given (ring_at s r) s o (fun '(id, n) => o = Ok (aset_m s m (id, n, x mod n), Base ONone))
  | CMFromBool x m r => given (ring_at s r) s o (fun '(id, n) => o = Ok (aset_m s m (id, n, Z.b2z x mod n), Base ONone))
  | CM2 op k m x y => given (elem_at s x) s o (fun x => given (elem_at s y) s o (fun y =>
      if (k <? 6)%nat then mbin_outcome op s m x y o else o = Ok (s, Base ONone)))
  | CMNeg k m x => given (elem_at s x) s o (fun '(id, n, a) =>
      o = Ok (if (k <? 2)%nat then aset_m s m (id, n, (- a) mod n) else s, Base ONone))
  | CMPow m x e => given (elem_at s x) s o (fun '(id, n, a) =>
      o = Ok (aset_m s m (id, n, a ^ u e mod n), Base ONone) \/ (o = Panic OutOfMemory /\ room_for_pow n (u e) = false))
  | CMPowSigned m x e => given (elem_at s x) s o (fun '(id, n, a) =>
      if 0 <=? i e then o = Ok (aset_m s m (id, n, a ^ i e mod n), Base ONone) \/ (o = Panic OutOfMemory /\ room_for_pow n (i e) = false)
      else dividing s m id n 1 (a ^ (- i e)) n true true (negb (room_for_pow n (- i e))) o)
  | CMInverse m x => given (elem_at s x) s o (fun '(id, n, a) =>
      (Z.gcd a n = 1 /\ exists b, 0 <= b < n /\ (a * b) mod n = 1 mod n /\ o = Ok (aset_m s m (id, n, b), Base (OBool true))) \/
      (Z.gcd a n <> 1 /\ o = Ok (s, Base (OBool false))) \/
      (o = Panic NumberTooLarge /\ MAXV <= 2 * n))
  | CMResidue d x => given (elem_at s x) s o (fun '(_, _, a) => o = Ok (aset_u s d a, Base ONone))
  | CMEq x y => given (elem_at s x) s o (fun '(id, _, a) => given (elem_at s y) s o (fun '(id', _, b) =>
      o = if id =? id' then Ok (s, Base (OBool (a =? b))) else Panic DifferentRings))
  | CMClone m x => given (elem_at s x) s o (fun x => o = Ok (aset_m s m x, Base ONone))
  | CMCloneFrom m x => given (elem_at s x) s o (fun x => given (elem_at s m) s o (fun _ => o = Ok (aset_m s m x, Base ONone)))
  | CMText t f x => given (elem_at s x) s o (fun '(_, n, a) => exists x, element_text t f n a (Ok x) /\ o = Ok (s, Text x))
  end.

(** The runs of the machine. *)
Fixpoint allowed_run (n : nat) (c : app) (tr : list seen) (s : aworld) (o : res (list seen * aworld)) : Prop :=
  match n with
  | O => o = Ok (tr, s)
  | S n => match c tr with
           | None => o = Ok (tr, s)
           | Some c1 =>
               (exists p, allowed c1 s (Panic p) /\ o = Panic p) \/
               (exists s' x, allowed c1 s (Ok (s', x)) /\ allowed_run n c (x :: tr) s' o)
           end
  end.

(** The calls that have exactly one outcome.  The others are: extended gcds, whose
    coefficients are not unique; inverses modulo numbers of more than half the largest
    one, which may fail (C34); powers that may need too much memory (C33); and over-long
    texts that are not numerals (C26). *)
Definition tame (r : Z) (t : list Z) : Prop :=
  (exists v, numeral r t v) \/ r ^ (Z.of_nat (length (sans_zeros t)) - 1) < MAXV.
Definition moderate (x : option (Z * Z * Z)) : Prop :=
  match x with Some (_, n, _) => 2 * n < MAXV | None => True end.
Definition affordable (x : option (Z * Z * Z)) (e : Z) : Prop :=
  match x with Some (_, n, _) => room_for_pow n e = true | None => True end.
Definition settled (c : call) (s : aworld) : Prop :=
  match c with
  | CUParse r t _ => tame r (after_plus t)
  | CIParse r t _ => tame r (snd (after_sign t))
  | CUParsePrefix t _ => exists r body, prefixed (after_plus t) r body /\ tame r body
  | CIParsePrefix t _ => exists r body, prefixed (snd (after_sign t)) r body /\ tame r body
  | CUExtGcd _ _ _ _ _ | CIExtGcd _ _ _ _ _ => False
  | CM2 MDiv _ _ _ y => moderate (elem_at s y)
  | CMInverse _ x => moderate (elem_at s x)
  | CMPow _ x a => affordable (elem_at s x) (uz (num_of s) a)
  | CMPowSigned _ x a => affordable (elem_at s x) (Z.abs (iz (num_of s) a)) /\ (0 <= iz (num_of s) a \/ moderate (elem_at s x))
  | _ => True
  end.

(** The panics that the documentation announces, and the lack of memory. *)
Definition documented (p : panic) : Prop :=
  p = NumberTooLarge \/ p = NegativeUBig \/ p = DivideByZero \/ p = GcdOfZeros \/ p = InvalidRadix \/
  p = ZeroModulus \/ p = DifferentRings \/ p = NonInvertible \/ p = OutOfMemory.

(** What Rust's types, and the format being deserialized, ensure. *)
Definition call_ok (c : call) : Prop :=
  match c with
  | CBase i => instr_ok i
  | CUParse _ s _ | CIParse _ s _ | CUParsePrefix s _ | CIParsePrefix s _ => Z.of_nat (length s) < 2 ^ (ubits - 1)
  | CUText _ f _ | CIText _ f _ | CUTextRadix _ f _ | CITextRadix _ f _ | CRingText _ f _ | CMText _ f _ => width_ok f
  | CUDe h es _ | CIDe _ h es _ => digits_ok (2 ^ 64) es /\ (h = None \/ h = Some (Z.of_nat (length es)))
  | CMFromPrim sg tb x _ _ => prim_bits tb /\ prim_range sg tb x
  | _ => True
  end.

Definition app_ok (c : app) : Prop := forall tr c1, c tr = Some c1 -> call_ok c1.

(** The variables hold what the abstract machine says.  Identities are addresses:
    [known] tells which ring is, or was, at an address. *)
Definition depicts_with (known : Z -> ring) (w : world) (s : aworld) : Prop :=
  holds (nums w) (num_of s) /\ fresh w = next s /\
  (forall k, match rings w k, ring_at s k with
             | Some r, Some (id, n) => is_ring r n /\ ring_addr r = id /\ known id = r /\ id < next s
             | None, None => True
             | _, _ => False
             end) /\
  (forall k, match mods w k, elem_at s k with
             | Some x, Some (id, n, a) => element (known id) n x a /\ ring_addr (known id) = id /\ id < next s
             | None, None => True
             | _, _ => False
             end).
Definition depicts (w : world) (s : aworld) : Prop := exists known, depicts_with known w s.

(** All numbers are zero, and there are no rings and elements. *)
Definition empty : world := mkWorld start (fun _ => None) (fun _ => None) 0.
Definition aempty : aworld := mkA (mkIstate (fun _ => 0) (fun _ => 0)) (fun _ => None) (fun _ => None) 0.

End Abstract.
