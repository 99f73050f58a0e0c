(** C60: multiplication and division cost what the documentation says. *)
From Coq Require Import ZArith List Lia.
From Verif Require Import Model.Base Model.Words Model.FastDivide Model.Buffer Model.Mul Model.Div Model.Cost Model.CostDiv
  Model.UBig Model.MulOps Model.DivOps Model.Pow Model.CostOps Spec.Val Proofs.Basics Proofs.CostProofs Proofs.CostDivProofs
  Proofs.CostOperators Proofs.Samples.
Import ListNotations.
Open Scope Z_scope.

(** Model/Cost.v and Model/CostDiv.v repeat Model/Mul.v and Model/Div.v with a
    counter: each call of a routine on slices costs one, plus one for each word
    it can visit; each recursive call costs one.  The counter changes nothing,
    even in calls that panic. *)
Theorem C60_same_mul (A : Arch) (c : list Z) (s : sign) (a b : list Z) (mem : Z) :
  snd (c_add_signed_mul c s a b mem) = add_signed_mul c s a b mem /\
  snd (c_add_signed_mul_same_len c s a b mem) = add_signed_mul_same_len c s a b mem.
Proof. exact (conj (add_signed_mul_erase _ c s a b mem) (same_len_erase _ c s a b mem)). Qed.
Print Assumptions C60_same_mul.

Theorem C60_same_div (A : Arch) (lhs rhs : list Z) (f : FastDivideNormalized) (mem : Z) :
  snd (c_div_rem_in_place lhs rhs f mem) = div_rem_in_place lhs rhs f mem.
Proof. exact (div_rem_erase _ lhs rhs f mem). Qed.
Print Assumptions C60_same_div.

(** src/mul/toom_3.rs:58: O(a.len() * b.len()^0.47).  The number [n] of steps
    is at most 350 * a.len() * b.len()^0.47. *)
Theorem C60_mul (A : Arch) (AOK : ArchOk A) (c : list Z) (s : sign) (a b : list Z) (mem : Z) :
  wf c -> wf a -> wf b -> length c = (length a + length b)%nat ->
  mul_memory (length b) <= mem -> (1 <= length b <= length a)%nat ->
  exists n x, c_add_signed_mul c s a b mem = (n, Ok x) /\ add_signed_mul c s a b mem = Ok x /\
    0 <= n /\ n ^ 100 <= (350 * len a) ^ 100 * len b ^ 47.
Proof. exact (mul_steps c s a b mem). Qed.
Print Assumptions C60_mul.

(** src/mul/toom_3.rs:83: O(n^1.47) for equal lengths; src/mul/karatsuba.rs:64:
    O(n^1.59), with a smaller constant, for the lengths below the threshold of Toom-3. *)
Theorem C60_mul_same_len (A : Arch) (AOK : ArchOk A) (c : list Z) (s : sign) (a b : list Z) (mem : Z) :
  wf c -> wf a -> wf b -> length b = length a -> length c = (2 * length a)%nat ->
  mul_memory (length a) <= mem -> (1 <= length a)%nat ->
  exists n x, c_add_signed_mul_same_len c s a b mem = (n, Ok x) /\ add_signed_mul_same_len c s a b mem = Ok x /\
    0 <= n /\ n ^ 100 <= 120 ^ 100 * len a ^ 147 /\ (len a <= 192 -> n ^ 100 <= 24 ^ 100 * len a ^ 159).
Proof. exact (same_len_steps c s a b mem). Qed.
Print Assumptions C60_mul_same_len.

(** src/mul/simple.rs:28: O(a.len() * b.len()) *)
Theorem C60_mul_simple (A : Arch) (AOK : ArchOk A) (c : list Z) (s : sign) (a b : list Z) (mem : Z) :
  wf c -> wf a -> wf b -> length c = (length a + length b)%nat ->
  mul_memory (length b) <= mem -> (1 <= length b <= length a)%nat -> (length b <= 24)%nat ->
  fst (c_add_signed_mul c s a b mem) <= 20 * len a * len b.
Proof. exact (simple_steps c s a b mem). Qed.
Print Assumptions C60_mul_simple.

(** CHANGELOG.md:126: division takes O(n^1.47).  For [lhs] divided by [rest ++ [top]] it is
    the length of [lhs] times the 0.47-th power of the length of the divisor or of the quotient
    ([len lhs - len rest] words), whichever is shorter. *)
Theorem C60_div (A : Arch) (AOK : ArchOk A) (lhs rest : list Z) (top : Z) (f : FastDivideNormalized) (need mem : Z) :
  wf lhs -> wf (rest ++ [top]) -> B <= 2 * top -> fdn_new top = Ok f ->
  (1 <= length rest)%nat -> (length rest < length lhs)%nat ->
  div_memory (length lhs) (S (length rest)) = Ok need -> need <= mem ->
  exists n x, c_div_rem_in_place lhs (rest ++ [top]) f mem = (n, Ok x) /\
    div_rem_in_place lhs (rest ++ [top]) f mem = Ok x /\ 0 <= n /\
    n ^ 100 <= (1910 * len lhs) ^ 100 * (Z.min (len rest + 1) (len lhs - len rest)) ^ 47.
Proof. exact (div_steps lhs rest top f need mem). Qed.
Print Assumptions C60_div.

(** The operators: [n] is the number of steps, [ulen] the length in words. *)
Theorem C60_ubig_mul (A : Arch) (AOK : ArchOk A) (f : ubig -> ubig -> counted ubig) (g : ubig -> ubig -> res ubig)
  (a b x : ubig) (n : Z) :
  In (f, g) [(c_ubig_mul_vv, ubig_mul_vv); (c_ubig_mul_vr, ubig_mul_vr); (c_ubig_mul_rr, ubig_mul_rr)] ->
  1 <= ulen a -> 1 <= ulen b -> f a b = (n, Ok x) ->
  g a b = Ok x /\ 0 <= n /\
  n ^ 100 <= (368 * Z.max (ulen a) (ulen b)) ^ 100 * Z.min (ulen a) (ulen b) ^ 47.
Proof. exact (mul_op_steps f g a b n x). Qed.
Print Assumptions C60_ubig_mul.

Theorem C60_ubig_div_rem (A : Arch) (AOK : ArchOk A) (f : ubig -> ubig -> counted (ubig * ubig))
  (g : ubig -> ubig -> res (ubig * ubig)) (a b : ubig) (x : ubig * ubig) (n : Z) :
  In (f, g) [(c_ubig_div_rem_vv, ubig_div_rem_vv); (c_ubig_div_rem_vr, ubig_div_rem_vr); (c_ubig_div_rem_rr, ubig_div_rem_rr)] ->
  1 <= ulen a -> 1 <= ulen b -> f a b = (n, Ok x) ->
  g a b = Ok x /\ 0 <= n /\
  n ^ 100 <= (5376 * ulen a) ^ 100 * Z.min (ulen b) (Z.max 1 (ulen a - ulen b + 1)) ^ 47.
Proof. exact (div_rem_op_steps f g a b n x). Qed.
Print Assumptions C60_ubig_div_rem.

(** A power costs no more than a product of the length of the result would:
    1472 * m^1.47 for [m = ulen u * exp]. *)
Theorem C60_pow (A : Arch) (AOK : ArchOk A) (u x : ubig) (exp n : Z) :
  1 <= ulen u -> 1 <= exp -> c_ubig_pow u exp = (n, Ok x) ->
  ubig_pow u exp = Ok x /\ 0 <= n /\ n ^ 100 <= (1472 * (ulen u * exp)) ^ 100 * (ulen u * exp) ^ 47.
Proof. exact (pow_op_steps u exp n x). Qed.
Print Assumptions C60_pow.

(** Four rows of four words: 4 * (4 + 1) + 1. *)
Example C60_simple : let A := arch16 in
  let a := repeat 65535 4 in
  wf a /\ mul_memory 4 <= 0 /\
  fst (c_add_signed_mul (repeat 0 8) Positive a a 0) = 21.
Proof. cbv zeta. repeat split; try (vm_compute; congruence). now repeat constructor. Qed.

(** 25 words: Karatsuba, with three products of at most 13 words; they cost 523 steps. *)
Example C60_karatsuba : let A := arch16 in
  exists x, c_add_signed_mul_same_len (repeat 0 50) Positive (repeat 65535 25) (repeat 65535 25) (mul_memory 25) = (842, Ok x).
Proof. cbv zeta. eexists. vm_compute. reflexivity. Qed.

(** 16 words: Toom-Cook, when the five products, of 6, 7, 4, 7 and 7 words, are
    done by the simple algorithm; they cost 230 steps. *)
Example C60_toom_3 : let A := arch16 in
  exists x, c_toom_3_same_len c_simple_add_signed_mul_same_len (repeat 0 32) Positive (repeat 65535 16) (repeat 65535 16)
    (toom_3_memory 16) = (698, Ok x).
Proof. cbv zeta. eexists. vm_compute. reflexivity. Qed.

(** 8 words by 3 in chunks of 3 words. *)
Example C60_chunks : let A := arch16 in
  exists x, c_add_signed_mul_split_into_chunks c_simple_add_signed_mul_same_len c_add_signed_mul
    (repeat 65535 11) Positive (repeat 65535 8) (repeat 65535 3) 3 0 = (44, Ok x).
Proof. cbv zeta. eexists. vm_compute. reflexivity. Qed.

(** Dividing 8 words by 4: the subtraction at the top and 4 words of quotient. *)
Example C60_division : let A := arch16 in
  exists f, fdn_new 40000 = Ok f /\
  fst (c_div_rem_in_place (repeat 65535 8) ([1; 2; 3] ++ [40000]) f 0) = 30.
Proof. cbv zeta. eexists. split; [vm_compute; reflexivity|]. vm_compute. reflexivity. Qed.

(** The operators on values: 4 words squared, 8 words divided by 4 again, 3 ^ 40. *)
Example C60_operators : let A := arch16 in
  let a := Large (mkBuffer [1; 2; 3; 4] 6) in
  exists q r, snd (c_ubig_mul_rr a a) = Ok q /\ fst (c_ubig_mul_rr a a) = 49 /\
  c_ubig_div_rem_rr q a = (97, Ok (r, Small 0)) /\ as_words r = [1; 2; 3; 4].
Proof. cbv zeta. eexists. eexists. split; [vm_compute; reflexivity|]. split; [vm_compute; reflexivity|]. split; [vm_compute; reflexivity|]. reflexivity. Qed.

Example C60_power : let A := arch16 in
  exists x, c_ubig_pow (Small 3) 40 = (28, Ok x) /\ as_words x = [59425; 10527; 46162; 43192].
Proof. cbv zeta. eexists. split; vm_compute; reflexivity. Qed.

(** A quotient digit that is too large, so that the divisor is added back. *)
Example C60_add_back : let A := arch16 in
  (f <- fdn_new 32768 ;; Ok (c_simple_div_rem_in_place [3; 0; 0; 32767] [1; 0; 32768] f)) = Ok (12, Ok ([6; 65535; 32767; 65533], false)).
Proof. vm_compute. reflexivity. Qed.

(** The adjustments of the recursive division: one round; and the quotient with a carry, when
    the product and the inner division are free. *)
Example C60_adjust : let A := arch16 in
  c_adjust_loop 4 [65535; 65535] [1; 1] [1; 0] (-1) 0 = (6, Ok ([0; 0], [0; 1], 0, 0)) /\
  (f <- fdn_new 32768 ;;
   Ok (fst (c_div_small_quotient (fun c _ _ _ _ => free (Ok (c, 0))) (fun w _ _ _ => free (Ok (w, true))) (repeat 65535 67) (repeat 0 33 ++ [32768]) f 0))) = Ok 2.
Proof. vm_compute. split; reflexivity. Qed.

Definition C60_run {A : Arch} (m : counted ubig) : res (Z * list Z) := let '(k, r) := m in u <- r ;; Ok (k, as_words u).

Example C60_short : let A := arch16 in
  let a := Large (mkBuffer [1; 2; 3] 5) in
  map C60_run [c_mul_large_word (mkBuffer [1; 2; 3] 5) 40000; c_ubig_pow a 1; c_ubig_pow (Small 2) 40; c_div_large (mkBuffer [1; 2; 3; 4] 6) (mkBuffer [1; 2; 3] 5)] =
    [Ok (18, [40000; 14464; 54465; 1]); Ok (4, [1; 2; 3]); Ok (10, [0; 0; 256]); Ok (39, [21845; 1])] /\
  c_ubig_div_rem_rr a (Large (mkBuffer [1; 2; 3; 4] 6)) = (4, Ok (Small 0, a)).
Proof. vm_compute. split; reflexivity. Qed.
