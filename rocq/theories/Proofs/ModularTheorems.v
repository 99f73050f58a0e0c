(** Theorems about modular numbers as stated in the properties. *)
From Verif Require Import Model.Base Model.Words Model.Buffer Model.UBig Model.IBig Model.Convert Model.DivOps Model.PrimOps
  Model.Gcd Model.Modular Spec.Val Spec.Num Spec.Prim Spec.Modular
  Proofs.Basics Proofs.BufferProofs Proofs.ConvertProofs Proofs.GcdProofs Proofs.GcdApi
  Proofs.Limits Proofs.Scratch Proofs.ModularProofs Proofs.ModularRoom Proofs.ModularApi Proofs.ModularPow Proofs.Samples.
From Verif Require Model.Mul Model.RawMemory Proofs.RawMemoryProofs.
From Coq Require Import Lia Znumtheory Zpow_facts.

Section ModularTheorems.
Context {A : Arch} {AOK : ArchOk A}.

(** ** Residues *)

Lemma ring_new_zero addr u : ubig_ok u -> uval u = 0 -> ring_new addr u = Panic ZeroModulus.
Proof. intros Hu E. pose proof (ring_new_spec addr u Hu) as S. rewrite E in S. exact S. Qed.

Lemma yields_residue r n m z : yields_mod r n m z -> exists x, m = Ok x /\ element r n x (z mod n) /\ returns (residue x) (z mod n) /\ 0 <= z mod n < n.
Proof. intros (x & E & H). exists x. split; [exact E|]. split; [exact H|]. split; [apply (residue_spec r n); auto|apply H]. Qed.

(** Every residue of every ring is there. *)
Lemma residue_room r n a : is_ring r n -> 0 <= a < n -> ring_room r a.
Proof.
  intros Hr Ha. destruct r as [r|r]; cbn [ring_room]; [exact I|]. apply is_ring_large in Hr as R. pose proof (pow_sl r n R) as P.
  destruct R as (_ & _ & EM & _ & _ & HL & W). pose proof (val_bound _ W) as V. pose proof (proj1 (Bn_MAXV_le _) HL). rewrite EM in V. nia.
Qed.

Lemma elements_exist addr n a : 1 <= n < MAXV -> 0 <= a < n -> exists r x, ring_addr r = addr /\ element r n x a.
Proof.
  intros Hn Ha. destruct (representable n) as (un & Hun & <-); [lia|]. destruct (ring_new_ring addr un Hun ltac:(lia)) as (r & _ & Hr & Ea).
  destruct (representable a) as (ua & Hua & Va); [lia|]. destruct (ubig_into_modulo_spec r _ ua Hr Hua) as [U _].
  destruct U as [(x & _ & Hx) _]. { rewrite Va. apply (residue_room r (uval un)); auto. }
  exists r, x. split; [exact Ea|]. rewrite Va, Z.mod_small in Hx by lia. exact Hx.
Qed.

(** A number that cannot be converted although its residue is small. *)
Lemma into_modulo_too_large : exists r n u,
  is_ring r n /\ ubig_ok u /\ ubig_into_modulo u r = Panic NumberTooLarge /\ ubig_ref_into_modulo u r = Panic NumberTooLarge.
Proof.
  pose proof B_MAXV. pose proof B_ge. destruct (representable B) as (un & Hun & Vun); [nia|]. destruct max_exists as (u & Hu & Vu).
  pose proof (ring_new_spec 0 un Hun) as S. rewrite Vun, (proj2 (Z.eqb_neq _ _)) in S by lia. destruct S as (r & E & Ea & S).
  exists r, B, u. assert (Hr : is_ring r B) by (exists un; rewrite Ea; auto). split; [exact Hr|]. split; [exact Hu|].
  destruct (ubig_into_modulo_spec r B u Hr Hu) as [_ F]. apply F. destruct r as [r|r]; cbn [ring_room] in *.
  - destruct S as [S _]. lia.
  - destruct S as (_ & Hs & EM & N & L & L2 & W). rewrite Vu. assert (NZ : rl_shift r <> 0).
    { intros Z0. rewrite Z0, Z.pow_0_r, Z.mul_1_r in EM. pose proof (DivProofs.norm_div_bound _ _ N) as NB. rewrite EM in NB.
      pose proof (Bn_le 2 (length (rl_modulus r)) L) as LE. rewrite !Bn_S, Bn_0 in LE. nia. }
    assert (2 ^ 1 <= 2 ^ rl_shift r) by (apply Z.pow_le_mono_r; lia). change (2 ^ 1) with 2 in *. nia.
Qed.

(** ** Ring operations *)

Ltac forall_ops := repeat (constructor; [assumption|]); constructor.

Lemma adds_spec r n x a y b : element r n x a -> element r n y b -> Forall (fun op => yields_mod r n (op x y) (a + b)) adds.
Proof. intros Hx Hy. destruct (add_spec r n x a y b Hx Hy) as (H1 & H2 & H3 & H4 & H5 & H6). forall_ops. Qed.
Lemma subs_spec r n x a y b : element r n x a -> element r n y b -> Forall (fun op => yields_mod r n (op x y) (a - b)) subs.
Proof. intros Hx Hy. destruct (sub_spec r n x a y b Hx Hy) as (H1 & H2 & H3 & H4 & H5 & H6). forall_ops. Qed.
Lemma muls_spec r n x a y b : element r n x a -> element r n y b -> Forall (fun op => yields_mod_if (room_for_mul n) r n (op x y) (a * b)) muls.
Proof. intros Hx Hy. destruct (mul_spec r n x a y b Hx Hy) as (H1 & H2 & H3 & H4 & H5 & H6). forall_ops. Qed.

Lemma clone_spec r n x y b : element r n y b -> element r n (mod_clone y) b /\ element r n (mod_clone_from x y) b.
Proof. rewrite mod_clone_eq, mod_clone_from_eq. auto. Qed.

(** ** Powers *)

Theorem pow_all r n x a e : element r n x a -> ubig_ok e ->
  yields_mod r n (mod_pow x e) (a ^ uval e) \/ no_memory (room_for_pow n (uval e)) (mod_pow x e).
Proof.
  intros H He. pose proof (element_ring _ _ _ _ H) as Hr. destruct r as [r|r].
  - left. apply element_small in H as (R & raw & -> & H). cbn [mod_pow]. destruct (small_pow_spec r n R raw a e H He) as (raw' & -> & H').
    eexists. split; [reflexivity|]. apply small_element; auto.
  - apply element_large in H as (R & ws & -> & H). cbn [mod_pow].
    destruct (large_pow_spec r n R _ eq_refl ws a e H He) as [(ws' & -> & H')|[-> F]]; [left|right; split; [reflexivity|exact F]].
    eexists. split; [reflexivity|]. apply large_element; auto.
Qed.

Theorem pow_spec r n x a e : element r n x a -> ubig_ok e -> room_for_pow n (uval e) = true -> yields_mod r n (mod_pow x e) (a ^ uval e).
Proof. intros H He F. destruct (pow_all r n x a e H He) as [|[_ G]]; [auto|congruence]. Qed.

Theorem pow_no_room r n x a e : element r n x a -> ubig_ok e -> 2 <= uval e -> room_for_mul n = false -> mod_pow x e = Panic OutOfMemory.
Proof.
  intros H He H2 F. destruct r as [r|r].
  - apply element_small in H as ([R _] & _). unfold room_for_mul in F. rewrite (proj2 (Z.ltb_lt _ _)) in F by lia. discriminate.
  - apply element_large in H as (R & ws & -> & H). cbn [mod_pow]. rewrite (large_pow_no_room r n R) by auto. reflexivity.
Qed.

(** ** Inverse and division *)

Theorem inverse_all r n x a : element r n x a -> inverse_result r n (inverse x) a \/ gave_up n (inverse x).
Proof.
  intros H. pose proof (inverse_spec r n x a H) as S. destruct (inverse x) as [[y|]|p].
  - left. destruct S as (G & b & Hb & E). split; intros C; [|lia]. exists y, b. auto.
  - left. split; intros C; [lia|reflexivity].
  - destruct S as [-> S]. right. split; auto.
Qed.

Theorem inverse_fits r n x a : element r n x a -> 2 * n < MAXV -> inverse_result r n (inverse x) a.
Proof. intros H L. destruct (inverse_all r n x a H) as [|[_ G]]; [auto|lia]. Qed.

Lemma div_all r n x a y b : element r n x a -> element r n y b -> quotient_or_stop r n (mod_div_rr x y) a b.
Proof.
  intros Hx Hy. pose proof (is_ring_pos r n (element_ring _ _ _ _ Hx)) as Hn. unfold quotient_or_stop, mod_div_rr. destruct (inverse_all r n y b Hy) as [[I1 I2]|[-> G]].
  - destruct (Z.eq_dec (Z.gcd b n) 1) as [C|C].
    + destruct (I1 C) as (i & c & -> & Hi & E). cbn [bind]. destruct (mul_spec r n x a i c Hx Hi) as (_ & _ & M & _).
      unfold yields_mod_if in M. destruct (room_for_mul n); [|rewrite M; right; left; auto].
      left. split; [reflexivity|]. split; intros C'; [|contradiction]. destruct M as (z & -> & Hz).
      exists z, ((a * c) mod n). split; [reflexivity|]. split; [exact Hz|]. rewrite Zmult_mod_idemp_l. replace (a * c * b) with (a * (b * c)) by ring.
      rewrite <- Zmult_mod_idemp_r, E, Zmult_mod_idemp_r. f_equal. ring.
    + rewrite (I2 C). cbn [bind]. destruct (room_for_mul n); [|right; right; left; auto]. left. split; [reflexivity|]. split; intros C'; [contradiction|reflexivity].
  - do 3 right. split; [reflexivity|exact G].
Qed.

Lemma divs_all r n x a y b : element r n x a -> element r n y b -> Forall (fun op => quotient_or_stop r n (op x y) a b) divs.
Proof. intros Hx Hy. pose proof (div_all r n x a y b Hx Hy) as H. forall_ops. Qed.

Lemma divs_fits r n x a y b : element r n x a -> element r n y b -> 2 * n < MAXV -> room_for_mul n = true -> Forall (fun op => quotient_result r n (op x y) a b) divs.
Proof.
  intros Hx Hy L F. assert (H : quotient_result r n (mod_div_rr x y) a b) by (destruct (div_all r n x a y b Hx Hy) as [[_ ?]|[[? _]|[[? _]|[_ G]]]]; [assumption|congruence|congruence|lia]). forall_ops.
Qed.

(** The inverse of 2 in the ring of the largest modulus. *)
Lemma inverse_too_large : exists r n x y,
  element r n x 2 /\ element r n y 1 /\ Z.gcd 2 n = 1 /\ inverse x = Panic NumberTooLarge /\ Forall (fun op => op y x = Panic NumberTooLarge) divs.
Proof.
  pose proof B_MAXV as BM. pose proof B_ge as HB. destruct max_exists as (un & Hun & Vun).
  pose proof (ring_new_spec 0 un Hun) as S. rewrite Vun, (proj2 (Z.eqb_neq _ _)) in S by nia. destruct S as (r & E & Ea & S).
  assert (Hr : is_ring r (MAXV - 1)) by (exists un; rewrite Ea; auto).
  destruct (unsigned_into_modulo_spec r _ 8 2 Hr) as (x & _ & Hx); [left; reflexivity|lia|].
  destruct (unsigned_into_modulo_spec r _ 8 1 Hr) as (y & _ & Hy); [left; reflexivity|lia|].
  rewrite Z.mod_small in Hx, Hy by nia. exists r, (MAXV - 1), x, y. split; [exact Hx|]. split; [exact Hy|].
  assert (G : Z.gcd 2 (MAXV - 1) = 1).
  { apply Zgcd_1_rel_prime. apply rel_prime_sym. pose proof MAXV_even as Ev. apply bezout_rel_prime. apply Bezout_intro with (-1) (MAXV / 2).
    pose proof (Z.div_mod MAXV 2). lia. }
  split; [exact G|].
  assert (I : inverse x = Panic NumberTooLarge).
  { destruct r as [r|r]; [destruct S as [S _]; nia|]. pose proof (residue_spec _ _ _ _ Hx) as RS.
    apply element_large in Hx as (R & ws & -> & H). cbn [inverse residue] in *. unfold large_inverse. cbn [ml_ring].
    destruct RS as (ua & -> & Hua & Va). cbn [bind]. destruct (ring_modulus_spec (RingLarge r) _ Hr) as (ub & E' & Hub & Vb). cbn [ring_modulus] in E'. rewrite E'. cbn [bind].
    assert (ua = Small 2) as ->. { destruct ua as [w|b]; cbn [uval] in Va; [congruence|]. pose proof (Large_ge b Hua). lia. }
    rewrite (extended_gcd_limit ub Hub Vb). reflexivity. }
  split; [exact I|]. assert (D : mod_div_rr y x = Panic NumberTooLarge) by (unfold mod_div_rr; rewrite I; reflexivity). forall_ops.
Qed.

(** Negative powers. *)
Theorem pow_signed_all r n x a e : element r n x a -> ibig_ok e ->
  (0 <= ival e -> yields_mod r n (mod_pow_signed x e) (a ^ ival e) \/ no_memory (room_for_pow n (ival e)) (mod_pow_signed x e)) /\
  (ival e < 0 -> quotient_result r n (mod_pow_signed x e) 1 (a ^ (- ival e)) \/ gave_up n (mod_pow_signed x e) \/
                 (Z.gcd a n = 1 /\ no_memory (room_for_pow n (- ival e)) (mod_pow_signed x e))).
Proof.
  intros H [Hm Hz]. pose proof (is_ring_pos r n (element_ring _ _ _ _ H)) as Hn. pose proof (uval_nonneg _ Hm) as Hu.
  unfold mod_pow_signed, ival. destruct (isign e) eqn:Sg; cbn [sign_val]; split; intros C.
  - rewrite Z.mul_1_l. apply pow_all; auto.
  - lia.
  - assert (U : uval (imag e) = 0) by lia. specialize (Hz U). congruence.
  - assert (Gp : Z.gcd (a ^ uval (imag e)) n = 1 <-> Z.gcd a n = 1).
    { rewrite !Zgcd_1_rel_prime. split; intros G.
      - replace (uval (imag e)) with (Z.succ (uval (imag e) - 1)) in G by lia. rewrite Z.pow_succ_r in G by lia. exact (rel_prime_div _ _ _ G (Z.divide_factor_l a _)).
      - apply rel_prime_sym, rel_prime_Zpower_r; [lia|]. apply rel_prime_sym; auto. }
    replace (- (-1 * uval (imag e))) with (uval (imag e)) by lia.
    destruct (inverse_all r n x a H) as [[I1 I2]|[-> G]]; [|right; left; split; [reflexivity|exact G]].
    destruct (Z.eq_dec (Z.gcd a n) 1) as [G|G].
    + destruct (I1 G) as (i & b & -> & Hi & E). cbn [bind]. destruct (pow_all r n i b (imag e) Hi Hm) as [(z & -> & Hz')|NM]; [left|right; right; split; [exact G|exact NM]].
      split; intros G2; [|exfalso; apply G2, Gp, G].
      exists z, (b ^ uval (imag e) mod n). split; [reflexivity|]. split; [exact Hz'|]. rewrite Zmult_mod_idemp_l, <- Z.pow_mul_l.
      rewrite Zpower_mod by lia. rewrite (Z.mul_comm b a), E. rewrite <- Zpower_mod by lia. rewrite Z.pow_1_l by lia. reflexivity.
    + left. split; intros G2; [exfalso; apply G, Gp, G2|]. rewrite I2 by exact G. reflexivity.
Qed.

Theorem pow_signed_fits r n x a e : element r n x a -> ibig_ok e -> 2 * n < MAXV -> room_for_pow n (Z.abs (ival e)) = true ->
  (0 <= ival e -> yields_mod r n (mod_pow_signed x e) (a ^ ival e)) /\
  (ival e < 0 -> quotient_result r n (mod_pow_signed x e) 1 (a ^ (- ival e))).
Proof.
  intros H He L F. destruct (pow_signed_all r n x a e H He) as [P1 P2]. split; intros C.
  - rewrite Z.abs_eq in F by lia. destruct (P1 C) as [|[_ G]]; [auto|congruence].
  - rewrite Z.abs_neq in F by lia. destruct (P2 C) as [|[[_ G]|(_ & _ & G)]]; [auto|lia|congruence].
Qed.

Lemma pow_signed_too_large : exists r n x e,
  element r n x 2 /\ Z.gcd 2 n = 1 /\ ibig_ok e /\ ival e = -1 /\ mod_pow_signed x e = Panic NumberTooLarge.
Proof.
  destruct inverse_too_large as (r & n & x & y & Hx & _ & G & I & _). pose proof B_ge. exists r, n, x, (mkIBig Negative (Small 1)). split; [exact Hx|]. split; [exact G|].
  split; [split; [cbn; lia|cbn; lia]|]. split; [reflexivity|]. unfold mod_pow_signed. cbn [isign]. rewrite I. reflexivity.
Qed.

(** ** Different rings *)

Lemma element_addr r n x a : element r n x a -> ring_of x = r.
Proof. intros (_ & _ & S). destruct x as [m|m], r as [r|r]; cbn in *; try contradiction; destruct S as [-> _]; reflexivity. Qed.

Lemma small_diff a b : rs_addr (ms_ring a) <> rs_addr (ms_ring b) -> small_check_same_ring a b = Panic DifferentRings.
Proof. intros D. unfold small_check_same_ring. rewrite (proj2 (Z.eqb_neq _ _)) by auto. reflexivity. Qed.
Lemma large_diff a b : rl_addr (ml_ring a) <> rl_addr (ml_ring b) -> large_check_same_ring a b = Panic DifferentRings.
Proof. intros D. unfold large_check_same_ring. rewrite (proj2 (Z.eqb_neq _ _)) by auto. reflexivity. Qed.

Lemma assign_diff x y : ring_addr (ring_of x) <> ring_addr (ring_of y) ->
  mod_add_assign_r x y = Panic DifferentRings /\ mod_sub_assign_r x y = Panic DifferentRings /\ mod_sub_rv x y = Panic DifferentRings /\
  mod_mul_assign_r x y = Panic DifferentRings /\ modulo_eq x y = Panic DifferentRings.
Proof.
  intros D. destruct x as [a|a], y as [b|b]; cbn [mod_add_assign_r mod_sub_assign_r mod_sub_rv mod_mul_assign_r modulo_eq]; auto; cbn in D.
  - unfold small_add_in_place, small_sub_in_place, small_sub_in_place_swap, small_mul_in_place. rewrite (small_diff a b) by auto. auto.
  - unfold large_add_in_place, large_sub_in_place, large_sub_in_place_swap. rewrite (large_diff a b) by auto. auto.
Qed.

Theorem different_rings x y : ring_addr (ring_of x) <> ring_addr (ring_of y) ->
  Forall (fun op => op x y = Panic DifferentRings) (adds ++ subs ++ muls) /\ modulo_eq x y = Panic DifferentRings.
Proof.
  intros D. destruct (assign_diff x y D) as (H1 & H2 & H3 & H4 & H5). destruct (assign_diff y x) as (H1' & _ & _ & H4' & _); [auto|].
  split; [|exact H5]. unfold adds, subs, muls, mod_add_vv, mod_add_rv, mod_add_rr, mod_add_vr, mod_add_assign_v, mod_sub_vv, mod_sub_rr, mod_sub_vr, mod_sub_assign_v,
    mod_mul_vv, mod_mul_rv, mod_mul_rr, mod_mul_vr, mod_mul_assign_v. rewrite mod_clone_eq || idtac. cbn [app].
  repeat (constructor; [rewrite ?mod_clone_eq; assumption|]). constructor.
Qed.

(** Division first looks for the inverse of the divisor. *)
Theorem div_different_rings r n x a s m y b : element r n x a -> element s m y b -> ring_addr r <> ring_addr s ->
  Forall (fun op => (Z.gcd b m = 1 /\ op x y = Panic DifferentRings) \/ (Z.gcd b m <> 1 /\ op x y = Panic NonInvertible) \/ gave_up m (op x y)) divs.
Proof.
  intros Hx Hy D. assert (K : (Z.gcd b m = 1 /\ mod_div_rr x y = Panic DifferentRings) \/ (Z.gcd b m <> 1 /\ mod_div_rr x y = Panic NonInvertible) \/ gave_up m (mod_div_rr x y)).
  { unfold mod_div_rr. destruct (inverse_all s m y b Hy) as [[I1 I2]|[-> G]]; [|right; right; split; [reflexivity|exact G]].
    destruct (Z.eq_dec (Z.gcd b m) 1) as [G|G].
    - left. split; [exact G|]. destruct (I1 G) as (i & c & -> & Hi & _). cbn [bind]. unfold mod_mul_rv, mod_mul_vr.
      apply (assign_diff i x). rewrite (element_addr _ _ _ _ Hi), (element_addr _ _ _ _ Hx). auto.
    - right. left. split; [exact G|]. rewrite (I2 G). reflexivity. }
  forall_ops.
Qed.

Lemma pow_room_enough n e : 1 <= n < MAXV -> ubits = 64 \/ n * n < MAXV -> n < B \/ (Z.log2 e + 1) * (Z.log2 n / wbits + 1) <= MAX_LEN -> room_for_pow n e = true.
Proof.
  intros R H [L|L]; [unfold room_for_pow; rewrite (proj2 (Z.ltb_lt _ _)) by exact L; reflexivity|]. exact (pow_room_often n e R H L).
Qed.

(** There is no room for products in the ring of the largest modulus if the numbers may
    take up the whole address space. *)
Lemma max_no_room : 2 ^ ubits <= wbits * (MAX_LEN + 4) -> room_for_mul (MAXV - 1) = false.
Proof.
  intros BIG. pose proof B_MAXV as BM. pose proof B_ge as HB. pose proof MAX_LEN_ge as ML. pose proof wbits_ge as HW.
  unfold room_for_mul. rewrite (proj2 (Z.ltb_ge _ _)) by nia. cbn [orb]. rewrite block_fits_spec. apply Z.leb_gt.
  assert (words_in (MAXV - 1) = MAX_LEN) as EW.
  { transitivity (MAX_LEN - 1 + 1); [|ring]. apply words_in_pow; [lia|]. replace (MAX_LEN - 1 + 1) with MAX_LEN by ring. change (2 ^ (wbits * MAX_LEN)) with MAXV.
    split; [|lia]. assert (2 ^ (wbits * (MAX_LEN - 1)) < 2 ^ (wbits * MAX_LEN)) by (apply Z.pow_lt_mono_r; nia). change (2 ^ (wbits * MAX_LEN)) with MAXV in *. lia. }
  unfold mul_words. rewrite EW. replace MAX_LEN with (Z.of_nat (Z.to_nat MAX_LEN)) by lia. rewrite product_scratch_nat by lia.
  change (2 * Z.of_nat (Z.to_nat MAX_LEN) + Mul.mul_memory (Z.to_nat MAX_LEN)) with (ring_need (Z.to_nat MAX_LEN)).
  destruct (Z.le_gt_cases (ring_need (Z.to_nat MAX_LEN) * RawMemory.word_size) RawMemory.ISIZE_MAX) as [C|C]; [|exact C].
  destruct (ring_mul_request (Z.to_nat MAX_LEN)) as [F _]; [lia|lia|]. destruct (F C) as (l & E & _).
  rewrite (RawMemoryProofs.ring_mul_out_of_memory RawMemory.word_ty word_ty_ok BIG) in E. discriminate.
Qed.

Lemma max_ring_stops : 2 ^ ubits <= wbits * (MAX_LEN + 4) -> exists r x y,
  element r (MAXV - 1) x 2 /\ element r (MAXV - 1) y 3 /\
  Forall (fun op => op x y = Panic OutOfMemory) muls /\ (forall e, ubig_ok e -> 2 <= uval e -> mod_pow x e = Panic OutOfMemory).
Proof.
  intros BIG. pose proof (max_no_room BIG) as NR. pose proof B_MAXV as BM. pose proof B_ge as HB. destruct max_exists as (un & Hun & Vun).
  destruct (ring_new_ring 0 un Hun ltac:(nia)) as (r & _ & Hr & _). rewrite Vun in Hr.
  destruct (unsigned_into_modulo_spec r _ 8 2 Hr) as (x & _ & Hx); [left; reflexivity|lia|].
  destruct (unsigned_into_modulo_spec r _ 8 3 Hr) as (y & _ & Hy); [left; reflexivity|lia|].
  rewrite Z.mod_small in Hx, Hy by nia. exists r, x, y. split; [exact Hx|]. split; [exact Hy|]. split.
  - pose proof (muls_spec r _ x 2 y 3 Hx Hy) as M. rewrite NR in M. exact M.
  - intros e He H2. exact (pow_no_room r _ x 2 e Hx He H2 NR).
Qed.

End ModularTheorems.

(** So it is on 32-bit machines. *)
Lemma muls_refuted : exists (A : Arch) (AOK : ArchOk A) r n x y, wbits = 32 /\ ubits = 32 /\ element r n x 2 /\ element r n y 3 /\
  Forall (fun op => op x y = Panic OutOfMemory) muls.
Proof.
  exists arch32, arch32_ok. destruct (max_ring_stops (A := arch32)) as (r & x & y & H1 & H2 & H3 & _); [vm_compute; discriminate|].
  exists r, (@MAXV arch32 - 1), x, y. split; [reflexivity|]. split; [reflexivity|]. auto.
Qed.

Lemma pow_refuted : exists (A : Arch) (AOK : ArchOk A) r n x, wbits = 32 /\ ubits = 32 /\ element r n x 2 /\
  (forall e, ubig_ok e -> 2 <= uval e -> mod_pow x e = Panic OutOfMemory).
Proof.
  exists arch32, arch32_ok. destruct (max_ring_stops (A := arch32)) as (r & x & y & H1 & _ & _ & H2); [vm_compute; discriminate|].
  exists r, (@MAXV arch32 - 1), x. split; [reflexivity|]. split; [reflexivity|]. auto.
Qed.
