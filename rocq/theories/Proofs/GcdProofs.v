(** The greatest common divisor operations of src/gcd.rs are exact. *)
From Verif Require Import Model.Base Model.Words Model.Buffer Model.UBig Model.IBig Model.Convert Model.AddOps Model.MulOps
  Model.ShiftOps Model.Bits Model.DivOps Model.PrimOps Model.Gcd Spec.Val Spec.Num Spec.Prim Proofs.Basics Proofs.BufferProofs
  Proofs.AddOpsProofs Proofs.ConvertProofs Proofs.ShiftOpsProofs Proofs.BitsProofs Proofs.BitCountProofs Proofs.DivOpsProofs
  Proofs.PrimOpsProofs Proofs.Bounds Proofs.ApiProofs Proofs.Limits.
From Coq Require Import Lia Znumtheory.

(** ** Arithmetic *)

Lemma odd_pow2_coprime b k : 0 <= k -> Z.odd b = true -> rel_prime b (2 ^ k).
Proof.
  intros Hk Hb. revert k Hk. apply natlike_ind.
  - apply rel_prime_sym, rel_prime_1.
  - intros k Hk IH. rewrite Z.pow_succ_r by auto. apply rel_prime_mult; auto.
    apply rel_prime_sym. apply prime_rel_prime; [apply prime_2|].
    intros [q ->]. rewrite Z.odd_mul, andb_false_r in Hb. discriminate.
Qed.

Lemma gcd_odd_shift g b k : 0 <= k -> Z.odd b = true -> Z.gcd (g * 2 ^ k) b = Z.gcd g b.
Proof.
  intros Hk Hb. pose proof (odd_pow2_coprime b k Hk Hb) as C.
  apply Z.divide_antisym_nonneg; try apply Z.gcd_nonneg.
  - apply Z.gcd_greatest; [|apply Z.gcd_divide_r].
    apply Gauss with (2 ^ k); [rewrite Z.mul_comm; apply Z.gcd_divide_l|].
    apply rel_prime_div with b; [auto|apply Z.gcd_divide_r].
  - apply Z.gcd_greatest; [apply Z.divide_mul_l, Z.gcd_divide_l|apply Z.gcd_divide_r].
Qed.

Lemma gcd_shifts p q j k : 0 <= j -> 0 <= k -> Z.odd p = true -> Z.odd q = true ->
  Z.gcd (p * 2 ^ j) (q * 2 ^ k) = Z.gcd p q * 2 ^ Z.min j k.
Proof.
  assert (main : forall p q j k, 0 <= j <= k -> Z.odd p = true -> Z.gcd (p * 2 ^ j) (q * 2 ^ k) = Z.gcd p q * 2 ^ j).
  { clear. intros p q j k H Hp. replace (2 ^ k) with (2 ^ (k - j) * 2 ^ j) by (rewrite <- Z.pow_add_r by lia; f_equal; lia).
    rewrite Z.mul_assoc. rewrite Z.gcd_mul_mono_r_nonneg by (apply Z.pow_nonneg; lia). f_equal.
    rewrite Z.gcd_comm. rewrite gcd_odd_shift by (auto; lia). apply Z.gcd_comm. }
  intros Hj Hk Hp Hq. destruct (Z.le_ge_cases j k) as [C|C].
  - rewrite Z.min_l by auto. apply main; auto.
  - rewrite Z.min_r by auto. rewrite Z.gcd_comm, main by (auto; lia). rewrite Z.gcd_comm. reflexivity.
Qed.

Section Gcd.
Context {A : Arch} {AOK : ArchOk A}.

Lemma ubig_lt_spec a b : ubig_ok a -> ubig_ok b -> ubig_lt a b = Ok (uval a <? uval b).
Proof. intros Ha Hb. unfold ubig_lt. rewrite ubig_cmp_spec by auto. cbn [bind]. unfold Z.ltb. destruct (_ ?= _); auto. Qed.

Lemma ubig_le_spec a b : ubig_ok a -> ubig_ok b -> ubig_le a b = Ok (uval a <=? uval b).
Proof. intros Ha Hb. unfold ubig_le. rewrite ubig_cmp_spec by auto. cbn [bind]. unfold Z.leb. destruct (_ ?= _); auto. Qed.

Lemma shr_exists u k : ubig_ok u -> 0 <= k -> exists u', ubig_shr_assign u k = Ok u' /\ ubig_ok u' /\ uval u' = uval u / 2 ^ k.
Proof. intros Hu Hk. unfold ubig_shr_assign. apply shr_returns; auto. apply ubig_shr_v_yields; auto. Qed.


Lemma sub_exists a b : ubig_ok a -> ubig_ok b -> uval b <= uval a ->
  exists c, ubig_sub_assign_r a b = Ok c /\ ubig_ok c /\ uval c = uval a - uval b.
Proof.
  intros Ha Hb H. unfold ubig_sub_assign_r. destruct (ubig_sub_vr_yields a b Ha Hb) as [Y _].
  assert (0 <= uval a - uval b) as P by lia. destruct (Y P) as [Y1 _]. apply Y1.
  apply ubig_ok_val in Ha, Hb. lia.
Qed.

Lemma add_exists a b : ubig_ok a -> ubig_ok b -> uval a + uval b < MAXV ->
  exists c, ubig_add_assign_r a b = Ok c /\ ubig_ok c /\ uval c = uval a + uval b.
Proof. intros Ha Hb H. unfold ubig_add_assign_r. destruct (ubig_add_vr_yields a b Ha Hb) as [Y _]. auto. Qed.

Lemma pow_fits x k : 0 < x -> 0 <= k -> x * 2 ^ k < MAXV -> k < 2 ^ ubits.
Proof.
  intros Hx Hk H. pose proof MAX_BIT_LEN_usize. assert (0 < 2 ^ k) by (apply Z.pow_pos_nonneg; lia).
  assert (2 ^ k < MAXV) as L by nia. unfold MAXV in L. apply Z.pow_lt_mono_r_iff in L; [lia|lia|].
  pose proof MAX_LEN_ge. destruct AOK as [[->|[->| ->]] _]; lia.
Qed.

Lemma uval_bits u : ubig_ok u -> uval u < 2 ^ (wbits * len (as_words u)).
Proof.
  intros H. destruct u as [w|b]; cbn [uval as_words] in *.
  - destruct (Z.eqb_spec w 0); cbn [length]; unfold len; cbn [length Z.of_nat]; cbn in H.
    + subst. rewrite Z.mul_0_r. lia.
    + change (0 <= w < B) in H. unfold B in H. rewrite Z.mul_1_r. lia.
  - destruct H as (W & _). pose proof (val_bound _ W). unfold Bn, B in *.
    assert (0 < wbits) by (destruct AOK as [[->|[->| ->]] _]; lia).
    rewrite Z.pow_mul_r by (unfold len; lia). apply H.
Qed.

Lemma gcd_fuel_spec a b : ubig_ok a -> ubig_ok b ->
  exists f, gcd_fuel a b = S f /\ uval a * uval b * 2 < 2 ^ Z.of_nat f.
Proof.
  intros Ha Hb. unfold gcd_fuel.
  exists (2 + Z.to_nat (wbits * (len (as_words a) + len (as_words b))))%nat. split; [reflexivity|].
  pose proof (uval_bits a Ha). pose proof (uval_bits b Hb). pose proof (uval_nonneg a Ha). pose proof (uval_nonneg b Hb).
  assert (0 < wbits) by (destruct AOK as [[->|[->| ->]] _]; lia).
  set (n := len (as_words a)) in *. set (m := len (as_words b)) in *.
  assert (0 <= n) by (unfold n, len; lia). assert (0 <= m) by (unfold m, len; lia).
  replace (Z.of_nat (2 + Z.to_nat (wbits * (n + m)))%nat) with (wbits * n + wbits * m + 2) by nia.
  rewrite !Z.pow_add_r by nia. 
  assert (uval a * uval b < 2 ^ (wbits * n) * 2 ^ (wbits * m)) by nia.
  change (2 ^ 2) with 4. nia.
Qed.

(** ** gcd *)

Lemma odd_diff a b : Z.odd a = true -> Z.odd b = true -> Z.odd (a - b) = false.
Proof. intros Ha Hb. rewrite Z.odd_sub, Ha, Hb. reflexivity. Qed.

Lemma odd_part_odd x k : odd_part x k -> 0 <= k /\ exists p, 0 < p /\ Z.odd p = true /\ x = p * 2 ^ k /\ x / 2 ^ k = p.
Proof.
  intros [Hk (q & Hq & E)]. split; [auto|]. exists (2 * q + 1). split; [lia|]. split.
  { rewrite Z.odd_add, Z.odd_mul. reflexivity. }
  split; [auto|]. rewrite E. apply Z.div_mul. apply Z.pow_nonzero; lia.
Qed.

Lemma odd_part_even x k p : 0 <= k -> x = p * 2 ^ k -> Z.odd x = false -> 0 < p -> Z.odd p = true -> 2 * p <= x.
Proof.
  intros Hk -> H Hp Op. destruct (Z.eq_dec k 0) as [->|N]; [rewrite Z.mul_1_r in H; congruence|].
  replace (2 ^ k) with (2 * 2 ^ (k - 1)) by (rewrite <- Z.pow_succ_r by lia; f_equal; lia).
  assert (0 < 2 ^ (k - 1)) by (apply Z.pow_pos_nonneg; lia). nia.
Qed.

Lemma gcd_loop_spec fuel : forall a b, ubig_ok a -> ubig_ok b -> Z.odd (uval b) = true ->
  uval a * uval b * (if Z.odd (uval a) then 2 else 1) < 2 ^ Z.of_nat fuel ->
  returns (gcd_loop (S fuel) a b) (Z.gcd (uval a) (uval b)).
Proof.
  induction fuel as [|fuel IH]; intros a b Ha Hb Ob F.
  all: pose proof (uval_nonneg a Ha) as Pa; pose proof (uval_nonneg b Hb) as Pb.
  all: assert (0 < uval b) as Qb by (destruct (Z.eq_dec (uval b) 0) as [E|]; [rewrite E in Ob; discriminate|lia]).
  all: destruct (ubig_trailing_zeros_spec a Ha) as [T0 T1]; cbn [gcd_loop].
  all: destruct (Z.eq_dec (uval a) 0) as [E|N];
    [rewrite (T0 E); cbn [bind]; exists b; split; [auto|]; split; [auto|]; rewrite E; rewrite Z.gcd_0_l_nonneg; auto|].
  { exfalso. change (2 ^ Z.of_nat 0) with 1 in F. destruct (Z.odd (uval a)); nia. }
  destruct (T1 N) as (k & -> & O). cbn [bind]. destruct (odd_part_odd _ _ O) as (Hk & p & Hp & Op & E & D).
  destruct (shr_exists a k Ha Hk) as (a1 & -> & Ha1 & V1). cbn [bind]. rewrite D in V1.
  rewrite ubig_lt_spec by auto. cbn [bind].
  assert (M : p * uval b < 2 ^ Z.of_nat fuel).
  { rewrite Nat2Z.inj_succ, Z.pow_succ_r in F by lia. assert (p <= uval a) by (rewrite E; assert (0 < 2 ^ k) by (apply Z.pow_pos_nonneg; lia); nia).
    destruct (Z.odd (uval a)) eqn:Q; [nia|]. pose proof (odd_part_even _ _ _ Hk E Q Hp Op). nia. }
  assert (G : Z.gcd (uval a) (uval b) = Z.gcd p (uval b)) by (rewrite E; apply gcd_odd_shift; auto).
  rewrite G. destruct (Z.ltb_spec (uval a1) (uval b)) as [L|L].
  - destruct (sub_exists b a1 Hb Ha1 ltac:(lia)) as (c & Ec & Hc & Vc). rewrite Ec. cbn [bind].
    assert (Oc : Z.odd (uval c) = false) by (rewrite Vc, V1; apply odd_diff; auto).
    destruct (IH c a1 Hc Ha1) as (r & Er & Hr & Vr); [rewrite V1; auto|rewrite Oc, Vc, V1; nia|].
    exists r. split; [exact Er|]. split; [auto|]. rewrite Vr, Vc, V1.
    rewrite Z.gcd_comm, Z.gcd_sub_diag_r. reflexivity.
  - destruct (sub_exists a1 b Ha1 Hb ltac:(lia)) as (c & Ec & Hc & Vc). rewrite Ec. cbn [bind].
    assert (Oc : Z.odd (uval c) = false) by (rewrite Vc, V1; apply odd_diff; auto).
    destruct (IH c b Hc Hb) as (r & Er & Hr & Vr); [auto|rewrite Oc, Vc, V1; nia|].
    exists r. split; [exact Er|]. split; [auto|]. rewrite Vr, Vc, V1.
    rewrite Z.gcd_comm, Z.gcd_sub_diag_r. apply Z.gcd_comm.
Qed.

Lemma ubig_gcd_spec a b : ubig_ok a -> ubig_ok b ->
  (uval a = 0 /\ uval b = 0 -> ubig_gcd a b = Panic GcdOfZeros) /\
  (uval a <> 0 \/ uval b <> 0 -> returns (ubig_gcd a b) (Z.gcd (uval a) (uval b))).
Proof.
  intros Ha Hb. unfold ubig_gcd.
  destruct (ubig_clone_spec a Ha) as (a' & -> & Ha' & Va). destruct (ubig_clone_spec b Hb) as (b' & -> & Hb' & Vb). cbn [bind].
  rewrite <- Va, <- Vb. clear a b Ha Hb Va Vb. rename a' into a, b' into b, Ha' into Ha, Hb' into Hb.
  destruct (ubig_trailing_zeros_spec a Ha) as [A0 A1]. destruct (ubig_trailing_zeros_spec b Hb) as [B0 B1].
  pose proof (ubig_ok_val a Ha) as Pa; pose proof (ubig_ok_val b Hb) as Pb.
  destruct (Z.eq_dec (uval a) 0) as [Ea|Na].
  - rewrite (A0 Ea). cbn [bind]. destruct (Z.eq_dec (uval b) 0) as [Eb|Nb].
    + rewrite (B0 Eb). cbn [bind]. split; [auto|lia].
    + destruct (B1 Nb) as (k & -> & O). cbn [bind]. split; [lia|]. intros _. exists b. split; [auto|]. split; [auto|].
      rewrite Ea, Z.gcd_0_l_nonneg by lia. auto.
  - destruct (A1 Na) as (j & -> & Oa). cbn [bind]. destruct (Z.eq_dec (uval b) 0) as [Eb|Nb].
    + rewrite (B0 Eb). cbn [bind]. split; [lia|]. intros _. exists a. split; [auto|]. split; [auto|].
      rewrite Eb, Z.gcd_0_r_nonneg by lia. auto.
    + destruct (B1 Nb) as (k & -> & Ob). cbn [bind]. split; [lia|]. intros _.
      destruct (odd_part_odd _ _ Oa) as (Hj & p & Hp & Op & Ea & Da). destruct (odd_part_odd _ _ Ob) as (Hk & q & Hq & Oq & Eb & Db).
      destruct (shr_exists a j Ha Hj) as (a1 & -> & Ha1 & V1). cbn [bind]. rewrite Da in V1.
      destruct (shr_exists b k Hb Hk) as (b1 & -> & Hb1 & W1). cbn [bind]. rewrite Db in W1.
      rewrite ubig_lt_spec by auto. cbn [bind].
      assert (main : forall s t, ubig_ok s -> ubig_ok t -> Z.odd (uval t) = true -> Z.gcd (uval s) (uval t) = Z.gcd p q ->
        returns (a0 <- ubig_rem_assign_r s t ;; b0 <- gcd_loop (gcd_fuel a0 t) a0 t ;; ubig_shl_v b0 (Z.min j k)) (Z.gcd (uval a) (uval b))).
      { intros s t Hs Ht Ot Eg. unfold ubig_rem_assign_r. destruct (ubig_rem_vr_yields s t Hs Ht) as [_ Y].
        assert (uval t <> 0) as Nt by (intros Z0; rewrite Z0 in Ot; discriminate).
        destruct (Y Nt) as (r & -> & Hr & Vr). cbn [bind].
        destruct (gcd_fuel_spec r t Hr Ht) as (f & -> & F).
        pose proof (uval_nonneg r Hr). pose proof (uval_nonneg t Ht).
        destruct (gcd_loop_spec f r t Hr Ht Ot) as (g & -> & Hg & Vg); [destruct (Z.odd (uval r)); nia|]. cbn [bind].
        assert (Eg' : uval g = Z.gcd p q).
        { rewrite Vg, Vr, <- Eg. rewrite Z.gcd_mod by auto. apply Z.gcd_comm. }
        assert (Ef : Z.gcd (uval a) (uval b) = uval g * 2 ^ Z.min j k) by (rewrite Ea, Eb, Eg'; apply gcd_shifts; auto).
        assert (Lf : Z.gcd (uval a) (uval b) <= uval a) by (apply Z.divide_pos_le; [lia|apply Z.gcd_divide_l]).
        rewrite Ef in *. apply yields_returns; [|lia]. apply ubig_shl_v_yields; auto.
        split; [lia|]. apply pow_fits with (uval g); [|lia|lia].
        pose proof (uval_nonneg g Hg). destruct (Z.eq_dec (uval g) 0) as [Z0|]; [|lia].
        rewrite Z0 in Eg'. symmetry in Eg'. apply Z.gcd_eq_0_l in Eg'. lia. }
      destruct (_ <? _); apply main; auto; rewrite ?V1, ?W1; auto. apply Z.gcd_comm.
Qed.

Lemma ibig_gcd_spec x y : ibig_ok x -> ibig_ok y ->
  (ival x = 0 /\ ival y = 0 -> ibig_gcd x y = Panic GcdOfZeros) /\
  (ival x <> 0 \/ ival y <> 0 -> ireturns (ibig_gcd x y) (Z.gcd (ival x) (ival y))).
Proof.
  intros [Hx _] [Hy _]. unfold ibig_gcd. destruct (ubig_gcd_spec _ _ Hx Hy) as [G0 G1].
  assert (M : forall z, Z.abs (ival z) = Z.abs (uval (imag z))) by (intros z; unfold ival; destruct (isign z); cbn [sign_val]; lia).
  pose proof (M x) as Mx. pose proof (M y) as My. split.
  - intros H. rewrite G0 by lia. reflexivity.
  - intros H. destruct G1 as (g & -> & Hg & Vg); [lia|]. cbn [bind]. eexists. split; [reflexivity|].
    destruct (ibig_from_ubig_spec g Hg) as [O V]. split; [auto|]. rewrite V, Vg.
    rewrite <- (Z.gcd_abs_l (ival x)), <- (Z.gcd_abs_r _ (ival y)), Mx, My, Z.gcd_abs_l, Z.gcd_abs_r. reflexivity.
Qed.


(** ** extended_gcd *)

Lemma is_odd_spec u : ubig_ok u -> is_odd u = Ok (Z.odd (uval u)).
Proof.
  intros H. unfold is_odd. rewrite ubig_and_ref_unsigned_spec; auto; [|unfold prim_bits; lia|lia]. cbn [bind]. f_equal.
  change 1 with (Z.ones 1). rewrite Z.land_ones by lia. rewrite Zodd_mod. change (2 ^ 1) with 2.
  pose proof (Z.mod_pos_bound (uval u) 2). destruct (Z.eqb_spec (uval u mod 2) 0); cbn [negb]; [rewrite e; reflexivity|].
  unfold Zeq_bool. assert (uval u mod 2 = 1) as -> by lia. reflexivity.
Qed.

Definition binv (u v a x y : Z) : Prop := 0 <= x <= v /\ 0 <= y <= u /\ a = x * u - y * v /\ 0 <= a <= v.

(** Halving keeps the invariant. *)
Lemma binv_halve u v a x y : Z.odd u = true \/ Z.odd v = true -> binv u v a x y -> Z.odd a = false ->
  if Z.odd x || Z.odd y
  then Z.odd (x + v) = false /\ Z.odd (y + u) = false /\ binv u v (a / 2) ((x + v) / 2) ((y + u) / 2)
  else binv u v (a / 2) (x / 2) (y / 2).
Proof.
  intros O (Bx & By & E & Ba) Oa.
  assert (half : forall z, Z.odd z = false -> exists w, z = 2 * w /\ z / 2 = w).
  { intros z H. exists (z / 2). split; auto. pose proof (Zdiv2_odd_eqn z) as D. rewrite H, Z.div2_div in D. lia. }
  assert (P : xorb (Z.odd x && Z.odd u) (Z.odd y && Z.odd v) = false) by (rewrite <- !Z.odd_mul, <- Z.odd_sub, <- E; auto).
  destruct (Z.odd x || Z.odd y) eqn:C.
  - assert (Z.odd (x + v) = false /\ Z.odd (y + u) = false) as [O1 O2].
    { rewrite !Z.odd_add. destruct (Z.odd x), (Z.odd y), (Z.odd u), (Z.odd v); cbn in *; auto; destruct O; discriminate. }
    split; [auto|]. split; [auto|].
    destruct (half _ O1) as (p & E1 & ->). destruct (half _ O2) as (q & E2 & ->). destruct (half _ Oa) as (r & E3 & ->).
    unfold binv. split; [lia|]. split; [lia|]. split; [|lia]. nia.
  - apply orb_false_elim in C as [O1 O2].
    destruct (half _ O1) as (p & E1 & ->). destruct (half _ O2) as (q & E2 & ->). destruct (half _ Oa) as (r & E3 & ->).
    unfold binv. split; [lia|]. split; [lia|]. split; [|lia]. nia.
Qed.

(** Subtracting keeps the invariant. *)
Lemma binv_sub u v a x y b p q : 0 < u -> 0 < v -> binv u v a x y -> binv u v b p q -> 0 < b <= a ->
  let x' := (if x <? p then x + v else x) in
  let y' := (if x <? p then y + u else y) in
  p <= x' /\ q <= y' /\ binv u v (a - b) (x' - p) (y' - q).
Proof.
  intros Hu Hv (Bx & By & E & Ba) (Bp & Bq & F & Bb) L. cbv zeta.
  assert (D : forall x' y', x' * u - y' * v = a -> p <= x' -> x' - p <= v -> q <= y' /\ binv u v (a - b) (x' - p) (y' - q)).
  { intros x' y' E' L1 L2. assert (R : (y' - q) * v = (x' - p) * u - (a - b)) by lia.
    assert (q <= y') by nia. assert (y' - q <= u) by nia. split; [auto|]. unfold binv. split; [lia|]. split; [lia|]. split; lia. }
  destruct (Z.ltb_spec x p) as [C|C]; (split; [lia|]; apply D; lia).
Qed.

Definition tri_ok (u v : Z) (t : triple) : Prop :=
  let '(a, x, y) := t in ubig_ok a /\ ubig_ok x /\ ubig_ok y /\ binv u v (uval a) (uval x) (uval y).

Definition tri_a (t : triple) : Z := uval (fst (fst t)).

(** Succeeds with a property, or gives up because [n] is too close to the limit. *)
Definition or_large {T} (n : Z) (r : res T) (P : T -> Prop) : Prop :=
  (exists t, r = Ok t /\ P t) \/ (r = Panic NumberTooLarge /\ MAXV <= n).

Lemma or_large_bind {T U} n (r : res T) (k : T -> res U) P Q :
  or_large n r P -> (forall t, P t -> or_large n (k t) Q) -> or_large n (bind r k) Q.
Proof. intros [(t & -> & H)|[-> H]] K; cbn [bind]; [auto|right; auto]. Qed.

Lemma or_large_ok {T} n (x : T) (P : T -> Prop) : P x -> or_large n (Ok x) P.
Proof. intros H. left. eauto. Qed.

Lemma add_or_large n a b : ubig_ok a -> ubig_ok b -> uval a + uval b <= n ->
  or_large n (ubig_add_assign_r a b) (fun c => ubig_ok c /\ uval c = uval a + uval b).
Proof.
  intros Ha Hb H. unfold ubig_add_assign_r. destruct (ubig_add_vr_yields a b Ha Hb) as [Y1 Y2].
  destruct (Z.lt_ge_cases (uval a + uval b) MAXV) as [C|C].
  - destruct (Y1 C) as (c & E & Hc & Vc). left. eauto.
  - right. split; [auto|lia].
Qed.

Lemma halve_loop_spec u v n : ubig_ok u -> ubig_ok v -> Z.odd (uval u) = true \/ Z.odd (uval v) = true ->
  2 * uval u <= n -> 2 * uval v <= n ->
  forall fuel t, tri_ok (uval u) (uval v) t -> 0 < tri_a t < 2 ^ Z.of_nat fuel ->
  or_large n (halve_loop (S fuel) u v t) (fun t' =>
    tri_ok (uval u) (uval v) t' /\ Z.odd (tri_a t') = true /\ exists k, 0 <= k /\ tri_a t = tri_a t' * 2 ^ k).
Proof.
  intros Hu Hv O Nu Nv. induction fuel as [|fuel IH]; intros [[a x] y] (Ha & Hx & Hy & I) F; unfold tri_a in *; cbn [fst] in *.
  { change (2 ^ Z.of_nat 0) with 1 in F. lia. }
  remember (S fuel) as fuel' eqn:Ef.
  change (halve_loop (S fuel') u v (a, x, y)) with
    (odd <- is_odd a ;;
      if (odd : bool) then Ok (a, x, y)
      else
        ox <- is_odd x ;;
        oy <- (if (ox : bool) then Ok true else is_odd y) ;;
        '(ax, ay) <-
          (if (oy : bool)
           then ax <- ubig_add_assign_r x v ;; ay <- ubig_add_assign_r y u ;; Ok (ax, ay)
           else Ok (x, y)) ;;
        a <- ubig_shr_assign a 1 ;;
        ax <- ubig_shr_assign ax 1 ;;
        ay <- ubig_shr_assign ay 1 ;;
        halve_loop fuel' u v (a, ax, ay)).
  rewrite !is_odd_spec by auto. cbn [bind].
  destruct (Z.odd (uval a)) eqn:Oa.
  { apply or_large_ok. split; [cbn; auto|]. split; [auto|]. exists 0. rewrite Z.mul_1_r. split; [lia|auto]. }
  assert ((if Z.odd (uval x) then Ok true else Ok (Z.odd (uval y))) = Ok (Z.odd (uval x) || Z.odd (uval y))) as ->
    by (destruct (Z.odd (uval x)); auto).
  cbn [bind].
  pose proof (binv_halve _ _ _ _ _ O I Oa) as H.
  destruct (shr_exists a 1 Ha ltac:(lia)) as (a1 & Ea & Ha1 & Va). change (2 ^ 1) with 2 in Va.
  assert (Da : uval a = 2 * uval a1).
  { rewrite Va. pose proof (Zdiv2_odd_eqn (uval a)) as D. rewrite Oa, Z.div2_div in D. lia. }
  assert (K : forall x' y', ubig_ok x' -> ubig_ok y' -> binv (uval u) (uval v) (uval a / 2) (uval x' / 2) (uval y' / 2) ->
    or_large n (a <- ubig_shr_assign a 1 ;; ax <- ubig_shr_assign x' 1 ;; ay <- ubig_shr_assign y' 1 ;; halve_loop fuel' u v (a, ax, ay))
      (fun t' => tri_ok (uval u) (uval v) t' /\ Z.odd (uval (fst (fst t'))) = true /\ exists k, 0 <= k /\ uval a = uval (fst (fst t')) * 2 ^ k)).
  { intros x' y' Hx' Hy' I'. rewrite Ea. cbn [bind].
    destruct (shr_exists x' 1 Hx' ltac:(lia)) as (x1 & -> & Hx1 & Vx). change (2 ^ 1) with 2 in Vx.
    destruct (shr_exists y' 1 Hy' ltac:(lia)) as (y1 & -> & Hy1 & Vy). change (2 ^ 1) with 2 in Vy. cbn [bind]. subst fuel'.
    destruct (IH (a1, x1, y1)) as [(t & Et & Tt & Ot & k & Hk & Ek)|L].
    - cbn [tri_ok]. split; [auto|]. split; [auto|]. split; [auto|]. rewrite Va, Vx, Vy. auto.
    - cbn [fst]. rewrite Nat2Z.inj_succ, Z.pow_succ_r in F by lia. lia.
    - left. exists t. split; [auto|]. split; [auto|]. split; [auto|]. exists (k + 1). split; [lia|].
      rewrite Z.pow_add_r by lia. cbn [fst] in Ek. rewrite Da, Ek. change (2 ^ 1) with 2. ring.
    - right. auto. }
  destruct (Z.odd (uval x) || Z.odd (uval y)).
  - destruct H as (_ & _ & H). destruct I as (Ix & Iy & _).
    pose proof (add_or_large n x v Hx Hv ltac:(lia)) as [(x' & -> & Hx' & Vx)|[-> L]]; [|right; auto].
    pose proof (add_or_large n y u Hy Hu ltac:(lia)) as [(y' & -> & Hy' & Vy)|[-> L]]; [|right; auto].
    cbn [bind]. apply K; auto. rewrite Vx, Vy. auto.
  - cbn [bind]. apply K; auto.
Qed.

Lemma egcd_loop_spec u v n : ubig_ok u -> ubig_ok v -> 0 < uval u -> 0 < uval v ->
  Z.odd (uval u) = true \/ Z.odd (uval v) = true -> 2 * uval u <= n -> 2 * uval v <= n ->
  forall fuel s t, tri_ok (uval u) (uval v) s -> tri_ok (uval u) (uval v) t -> Z.odd (tri_a t) = true ->
  tri_a s * tri_a t * (if Z.odd (tri_a s) then 2 else 1) < 2 ^ Z.of_nat fuel ->
  or_large n (egcd_loop (S fuel) u v s t) (fun t' => tri_ok (uval u) (uval v) t' /\ tri_a t' = Z.gcd (tri_a s) (tri_a t)).
Proof.
  intros Hu Hv Pu Pv O Nu Nv. induction fuel as [|fuel IH]; intros [[a x] y] [[b p] q] S T Ob F.
  all: pose proof S as (Ha & Hx & Hy & I); pose proof T as (Hb & Hp & Hq & J).
  all: unfold tri_a in *; cbn [fst] in *.
  all: pose proof (uval_nonneg a Ha) as Pa; pose proof (uval_nonneg b Hb) as Pb.
  all: assert (0 < uval b) as Qb by (destruct (Z.eq_dec (uval b) 0) as [E|]; [rewrite E in Ob; discriminate|lia]).
  all: destruct (Z.eq_dec (uval a) 0) as [E|N];
    [cbn [egcd_loop]; rewrite (proj2 (ubig_is_zero a Ha) E); apply or_large_ok; split; [exact T|]; cbn [fst]; rewrite E, Z.gcd_0_l_nonneg; auto|].
  { exfalso. change (2 ^ Z.of_nat 0) with 1 in F. destruct (Z.odd (uval a)); nia. }
  remember (Datatypes.S fuel) as fuel' eqn:Ef.
  cbn [egcd_loop]. assert (ubig_eqb a (from_word 0) = false) as ->.
  { destruct (ubig_eqb a (from_word 0)) eqn:C; auto. apply ubig_is_zero in C; auto. lia. }
  destruct (gcd_fuel_spec a a Ha Ha) as (f & -> & Ff).
  pose proof (halve_loop_spec u v n Hu Hv O Nu Nv f (a, x, y) S) as H. unfold tri_a in H; cbn [fst] in H.
  destruct H as [(t' & -> & S' & Oa' & k & Hk & Ek)|[-> L]]; [nia| |right; auto].
  cbn [bind]. destruct t' as [[a1 x1] y1]. cbn [fst] in *. pose proof S' as (Ha1 & Hx1 & Hy1 & I1).
  assert (P1 : 0 < uval a1).
  { pose proof (uval_nonneg a1 Ha1). destruct (Z.eq_dec (uval a1) 0) as [E|]; [rewrite E in Oa'; discriminate|lia]. }
  rewrite ubig_lt_spec by auto. cbn [bind].
  assert (M : uval a1 * uval b < 2 ^ Z.of_nat fuel).
  { subst fuel'. rewrite Nat2Z.inj_succ, Z.pow_succ_r in F by lia.
    assert (uval a1 <= uval a) by (rewrite Ek; assert (0 < 2 ^ k) by (apply Z.pow_pos_nonneg; lia); nia).
    destruct (Z.odd (uval a)) eqn:Q; [nia|]. pose proof (odd_part_even _ _ _ Hk Ek Q P1 Oa'). nia. }
  assert (G : Z.gcd (uval a) (uval b) = Z.gcd (uval a1) (uval b)) by (rewrite Ek; apply gcd_odd_shift; auto).
  rewrite G.
  assert (main : forall c cx cy d dx dy, tri_ok (uval u) (uval v) (c, cx, cy) -> tri_ok (uval u) (uval v) (d, dx, dy) ->
    Z.odd (uval c) = true -> Z.odd (uval d) = true -> uval d <= uval c -> uval d * uval c < 2 ^ Z.of_nat fuel ->
    or_large n
      (a2 <- ubig_sub_assign_r c d ;;
       lt <- ubig_lt cx dx ;;
       '(ax, ay) <-
          (if (lt : bool)
           then ax <- ubig_add_assign_r cx v ;; ay <- ubig_add_assign_r cy u ;; Ok (ax, ay)
           else Ok (cx, cy)) ;;
        ax <- ubig_sub_assign_r ax dx ;;
        ay <- ubig_sub_assign_r ay dy ;;
        egcd_loop fuel' u v (a2, ax, ay) (d, dx, dy))
      (fun t' => tri_ok (uval u) (uval v) t' /\ uval (fst (fst t')) = Z.gcd (uval c) (uval d))).
  { clear - A AOK Hu Hv Pu Pv Nu Nv IH Ef. intros c cx cy d dx dy S T Oc Od L M.
    pose proof S as (Hc & Hcx & Hcy & I); pose proof T as (Hd & Hdx & Hdy & J).
    destruct (sub_exists c d Hc Hd L) as (e & -> & He & Ve). cbn [bind].
    rewrite ubig_lt_spec by auto. cbn [bind].
    assert (Pd : 0 < uval d).
    { pose proof (uval_nonneg d Hd). destruct (Z.eq_dec (uval d) 0) as [E|]; [rewrite E in Od; discriminate|lia]. }
    pose proof (binv_sub _ _ _ _ _ _ _ _ Pu Pv I J (conj Pd L)) as Q. cbv zeta in Q.
    assert (K : forall x' y', ubig_ok x' -> ubig_ok y' -> uval dx <= uval x' -> uval dy <= uval y' ->
       binv (uval u) (uval v) (uval c - uval d) (uval x' - uval dx) (uval y' - uval dy) ->
       or_large n (ax <- ubig_sub_assign_r x' dx ;; ay <- ubig_sub_assign_r y' dy ;; egcd_loop fuel' u v (e, ax, ay) (d, dx, dy))
         (fun t' => tri_ok (uval u) (uval v) t' /\ uval (fst (fst t')) = Z.gcd (uval c) (uval d))).
    { intros x' y' Hx' Hy' L1 L2 I'.
      destruct (sub_exists x' dx Hx' Hdx L1) as (x2 & -> & Hx2 & Vx2).
      destruct (sub_exists y' dy Hy' Hdy L2) as (y2 & -> & Hy2 & Vy2). cbn [bind]. subst fuel'.
      assert (Oe : Z.odd (uval e) = false) by (rewrite Ve; apply odd_diff; auto).
      destruct (IH (e, x2, y2) (d, dx, dy)) as [(t & Et & Tt & Vt)|R].
      - cbn [tri_ok]. split; [auto|]. split; [auto|]. split; [auto|]. rewrite Ve, Vx2, Vy2. auto.
      - auto.
      - auto.
      - cbn [fst]. rewrite Oe, Ve. nia.
      - left. exists t. split; [auto|]. split; [auto|]. cbn [fst] in Vt. rewrite Vt, Ve.
        rewrite Z.gcd_comm, Z.gcd_sub_diag_r. apply Z.gcd_comm.
      - right. auto. }
    destruct I as (Ix & Iy & _).
    destruct (uval cx <? uval dx); destruct Q as (Q1 & Q2 & Q3).
    - pose proof (add_or_large n cx v Hcx Hv ltac:(lia)) as [(x' & -> & Hx' & Vx)|[-> R]]; [|right; auto].
      pose proof (add_or_large n cy u Hcy Hu ltac:(lia)) as [(y' & -> & Hy' & Vy)|[-> R]]; [|right; auto].
      cbn [bind]. rewrite <- Vx, <- Vy in *. apply K; auto.
    - cbn [bind]. apply K; auto. }
  destruct (Z.ltb_spec (uval a1) (uval b)) as [L|L].
  - rewrite Z.gcd_comm. apply main; auto; lia.
  - apply main; auto; lia.
Qed.

(** What extended_gcd promises. *)
Definition bezout (a b : Z) (r : ubig * ibig * ibig) : Prop :=
  let '(g, x, y) := r in
  ubig_ok g /\ ibig_ok x /\ ibig_ok y /\ uval g = Z.gcd a b /\ a * ival x + b * ival y = uval g /\
  Z.abs (ival x) <= Z.max b 1 /\ Z.abs (ival y) <= Z.max a 1.

(** A common power of two is no more than the largest one. *)
Lemma common_twos u v z i : 0 <= i -> Z.odd u = true \/ Z.odd v = true ->
  0 <= z -> (2 ^ i | u * 2 ^ z) -> (2 ^ i | v * 2 ^ z) -> i <= z.
Proof.
  intros Hi O Hz Du Dv. destruct (Z.le_gt_cases i z) as [L|G]; [exact L|exfalso].
  assert (E : 2 ^ i = 2 ^ (i - z - 1) * 2 * 2 ^ z).
  { rewrite <- (Z.pow_1_r 2) at 3. rewrite <- !Z.pow_add_r by lia. f_equal. lia. }
  assert (Pz : 0 < 2 ^ z) by (apply Z.pow_pos_nonneg; lia).
  assert (K : forall w, (2 ^ i | w * 2 ^ z) -> Z.odd w = false).
  { intros w [c C]. rewrite E in C. assert (w = 2 * (c * 2 ^ (i - z - 1))) as ->.
    - apply (Z.mul_cancel_r _ _ (2 ^ z)); [clear - Pz; lia|]. rewrite C. ring.
    - rewrite Z.odd_mul. reflexivity. }
  rewrite (K u Du), (K v Dv) in O. destruct O; discriminate.
Qed.

Lemma quotient_le a u z i : 0 <= i <= z -> 0 <= u -> a = u * 2 ^ z -> u <= a / 2 ^ i.
Proof.
  intros H Hu ->. replace z with ((z - i) + i) by lia. rewrite (Z.pow_add_r 2 (z - i) i), Z.mul_assoc by lia.
  rewrite Z.div_mul by (apply Z.pow_nonzero; lia).
  assert (0 < 2 ^ (z - i)) as P by (apply Z.pow_pos_nonneg; lia). clear H. nia.
Qed.

Lemma ubig_extended_gcd_spec a b : ubig_ok a -> ubig_ok b ->
  (uval a = 0 /\ uval b = 0 -> ubig_extended_gcd a b = Panic GcdOfZeros) /\
  (uval a <> 0 \/ uval b <> 0 -> forall i, 0 <= i -> (2 ^ i | uval a) -> (2 ^ i | uval b) ->
   or_large (2 * Z.max (uval a / 2 ^ i) (uval b / 2 ^ i)) (ubig_extended_gcd a b) (bezout (uval a) (uval b))).
Proof.
  intros Ha Hb. unfold ubig_extended_gcd.
  destruct (ubig_trailing_zeros_spec a Ha) as [A0 A1]. destruct (ubig_trailing_zeros_spec b Hb) as [B0 B1].
  pose proof (ubig_ok_val a Ha) as Pa; pose proof (ubig_ok_val b Hb) as Pb.
  destruct (ibig_from_unsigned_spec 8 0) as (i0 & E0 & H0 & V0); [unfold prim_bits; lia|lia|].
  destruct (ibig_from_unsigned_spec 8 1) as (i1 & E1 & H1 & V1); [unfold prim_bits; lia|lia|].
  destruct (Z.eq_dec (uval a) 0) as [Ea|Na].
  - rewrite (A0 Ea). cbn [bind]. destruct (Z.eq_dec (uval b) 0) as [Eb|Nb].
    + rewrite (B0 Eb). cbn [bind]. split; [auto|lia].
    + destruct (B1 Nb) as (k & -> & O). cbn [bind]. split; [lia|]. intros _ i _ _ _.
      destruct (ubig_clone_spec b Hb) as (g & -> & Hg & Vg). rewrite E0, E1. cbn [bind]. apply or_large_ok.
      unfold bezout. rewrite Ea, Z.gcd_0_l_nonneg, V0, V1, Vg by lia. repeat (split; [auto; lia|]). lia.
  - destruct (A1 Na) as (j & -> & Oa). cbn [bind]. destruct (Z.eq_dec (uval b) 0) as [Eb|Nb].
    + rewrite (B0 Eb). cbn [bind]. split; [lia|]. intros _ i _ _ _.
      destruct (ubig_clone_spec a Ha) as (g & -> & Hg & Vg). rewrite E0, E1. cbn [bind]. apply or_large_ok.
      unfold bezout. rewrite Eb, Z.gcd_0_r_nonneg, V0, V1, Vg by lia. repeat (split; [auto; lia|]). lia.
    + destruct (B1 Nb) as (k & -> & Ob). cbn [bind]. split; [lia|]. intros _ i Hi Ia Ib. clear i0 E0 H0 V0 i1 E1 H1 V1.
      destruct (odd_part_odd _ _ Oa) as (Hj & c & Hc & Oc & Ea & Da). destruct (odd_part_odd _ _ Ob) as (Hk & d & Hd & Od & Eb & Db).
      remember (Z.min j k) as z eqn:Ez. assert (Hz : 0 <= z /\ z <= j /\ z <= k) by (clear - Ez Hj Hk; lia).
      destruct Hz as (Hz & Zj & Zk).
      assert (Pz : 0 < 2 ^ z) by (apply Z.pow_pos_nonneg; lia).
      assert (sp : forall e w, z <= e -> w * 2 ^ e = w * 2 ^ (e - z) * 2 ^ z).
      { intros e w He. rewrite <- Z.mul_assoc, <- Z.pow_add_r by lia. do 2 f_equal. lia. }
      assert (sa : uval a = c * 2 ^ (j - z) * 2 ^ z) by (rewrite <- sp by exact Zj; auto).
      assert (sb : uval b = d * 2 ^ (k - z) * 2 ^ z) by (rewrite <- sp by exact Zk; auto).
      destruct (shr_returns (ubig_shr_r a z) a z Ha Hz) as (u & -> & Hu & Vu); [apply ubig_shr_r_yields; auto|].
      destruct (shr_returns (ubig_shr_r b z) b z Hb Hz) as (v & -> & Hv & Vv); [apply ubig_shr_r_yields; auto|].
      rewrite sa, Z.div_mul in Vu by (clear - Pz; lia). rewrite sb, Z.div_mul in Vv by (clear - Pz; lia). cbn [bind]. rewrite <- Vu in sa. rewrite <- Vv in sb.
      assert (Pu : 0 < uval u) by (rewrite Vu; apply Z.mul_pos_pos; [exact Hc|]; apply Z.pow_pos_nonneg; [reflexivity|clear - Zj; lia]).
      assert (Pv : 0 < uval v) by (rewrite Vv; apply Z.mul_pos_pos; [exact Hd|]; apply Z.pow_pos_nonneg; [reflexivity|clear - Zk; lia]).
      assert (Ouv : Z.odd (uval u) = true \/ Z.odd (uval v) = true).
      { destruct (Z.min_spec j k) as [[_ M]|[_ M]]; rewrite M in Ez; subst z.
        - left. rewrite Vu, Z.sub_diag, Z.mul_1_r. auto.
        - right. rewrite Vv, Z.sub_diag, Z.mul_1_r. auto. }
      assert (Iz : i <= z) by (rewrite sa in Ia; rewrite sb in Ib; exact (common_twos _ _ _ _ Hi Ouv Hz Ia Ib)).
      assert (Lu : uval u <= uval a / 2 ^ i) by (apply quotient_le with z; [clear - Hi Iz; lia|clear - Pu; lia|exact sa]).
      assert (Lv : uval v <= uval b / 2 ^ i) by (apply quotient_le with z; [clear - Hi Iz; lia|clear - Pv; lia|exact sb]).
      rewrite ubig_le_spec by auto. cbn [bind].
      remember (2 * Z.max (uval a / 2 ^ i) (uval b / 2 ^ i)) as n eqn:En.
      assert (Nu : 2 * uval u <= n) by (clear - Lu En; lia). assert (Nv : 2 * uval v <= n) by (clear - Lv En; lia).
      clear Lu Lv En Iz Ia Ib Hi.
      assert (Lu : uval u <= uval a) by (clear - sa Pu Pz; nia). assert (Lv : uval v <= uval b) by (clear - sb Pv Pz; nia).
      assert (Eg : Z.gcd (uval a) (uval b) = Z.gcd (uval u) (uval v) * 2 ^ z).
      { rewrite sa, sb. apply Z.gcd_mul_mono_r_nonneg. clear - Pz; lia. }
      assert (Nz : z < 2 ^ ubits) by (apply pow_fits with (uval u); [exact Pu|exact Hz|rewrite <- sa; apply Pa]).
      clear c d Oa Ob Oc Od Ea Da Eb Db sp Vu Vv Hc Hd A0 A1 B0 B1 Ez.
      assert (main : forall s t, tri_ok (uval u) (uval v) s -> tri_ok (uval u) (uval v) t ->
        Z.odd (tri_a t) = true -> Z.gcd (tri_a s) (tri_a t) = Z.gcd (uval u) (uval v) ->
        or_large n
          (let '(a, _, _) := s in let '(b, _, _) := t in
           '(b, bx, by_) <- egcd_loop (gcd_fuel a b) u v s t ;;
           g <- ubig_shl_v b z ;;
           Ok (g, ibig_from_ubig bx, ibig_neg (ibig_from_ubig by_))) (bezout (uval a) (uval b))).
      { intros [[s sx] sy] [[t tx] ty] S T Ot Egg. pose proof S as (Hs & _). pose proof T as (Ht & _).
        unfold tri_a in *; cbn [fst] in *.
        pose proof (uval_nonneg s Hs). pose proof (uval_nonneg t Ht).
        destruct (gcd_fuel_spec s t Hs Ht) as (f & -> & F).
        pose proof (egcd_loop_spec u v n Hu Hv Pu Pv Ouv Nu Nv f _ _ S T) as R. unfold tri_a in R; cbn [fst] in R.
        destruct R as [(r & -> & R & Er)|[-> L]]; [auto|destruct (Z.odd (uval s)); nia| |right; auto].
        destruct r as [[r rx] ry]. destruct R as (Hr & Hrx & Hry & (Ix & Iy & Er' & _)). cbn [fst bind] in *.
        rewrite Egg in Er. rewrite <- Er in Eg.
        assert (Lg : Z.gcd (uval a) (uval b) <= uval a) by (apply Z.divide_pos_le; [lia|apply Z.gcd_divide_l]).
        destruct (ubig_shl_v_yields r z Hr) as [Y _]; [lia|].
        destruct Y as (g & -> & Hg & Vg); [lia|]. cbn [bind]. apply or_large_ok. unfold bezout.
        destruct (ibig_from_ubig_spec rx Hrx) as [Ox Vx]. destruct (ibig_from_ubig_spec ry Hry) as [Oy Vy].
        destruct (ibig_neg_spec _ Oy) as [Oy' Vy'].
        split; [auto|]. split; [auto|]. split; [auto|]. split; [lia|]. split; [|rewrite Vy', Vy, Vx; lia].
        rewrite Vy', Vy, Vx, Vg, sa, sb, Er'. ring. }
      assert (main2 : forall s t, tri_ok (uval u) (uval v) s -> tri_ok (uval u) (uval v) t ->
        Z.odd (tri_a s) = true \/ Z.odd (tri_a t) = true -> Z.gcd (tri_a s) (tri_a t) = Z.gcd (uval u) (uval v) ->
        or_large n
          ('(s, t) <- Ok (s, t) ;;
           let '(b, _, _) := t in
           odd <- is_odd b ;;
           let '(s, t) := if (odd : bool) then (s, t) else (t, s) in
           let '(a, _, _) := s in let '(b, _, _) := t in
           '(b, bx, by_) <- egcd_loop (gcd_fuel a b) u v s t ;;
           g <- ubig_shl_v b z ;;
           Ok (g, ibig_from_ubig bx, ibig_neg (ibig_from_ubig by_))) (bezout (uval a) (uval b))).
      { intros [[s sx] sy] [[t tx] ty] S T Ot Egg. cbn [bind]. rewrite is_odd_spec by apply T. cbn [bind].
        unfold tri_a in Ot; cbn [fst] in Ot. destruct (Z.odd (uval t)) eqn:Q.
        - apply (main (s, sx, sy) (t, tx, ty)); auto.
        - apply (main (t, tx, ty) (s, sx, sy)); auto; [destruct Ot; [auto|discriminate]|]. rewrite Z.gcd_comm. auto. }
      pose proof one_ok as H1. pose proof zero_ok as H0.
      destruct (Z.leb_spec (uval u) (uval v)) as [C|C].
      * destruct (ubig_div_rem_rr_yields v u Hv Hu) as [_ Y]. destruct Y as (q & r & -> & Hq & Hr & Vq & Vr); [lia|]. cbn [bind].
        destruct (ubig_clone_spec u Hu) as (u' & -> & Hu' & Vu'). cbn [bind].
        pose proof (Z.div_mod (uval v) (uval u) ltac:(lia)) as DM. pose proof (Z.mod_pos_bound (uval v) (uval u) Pu) as MB.
        rewrite <- Vq, <- Vr in DM. rewrite <- Vr in MB.
        assert (1 <= uval q <= uval v) as Bq by nia.
        destruct (sub_exists v q Hv Hq ltac:(lia)) as (bx & Ebx & Hbx & Vbx).
        destruct (ubig_sub_rv_yields v q Hv Hq) as [Y _]. destruct Y as [Y _]; [lia|]. clear bx Ebx Hbx Vbx.
        destruct Y as (bx & -> & Hbx & Vbx); [apply ubig_ok_val in Hv; lia|]. cbn [bind].
        destruct (ubig_sub_rv_yields u (from_word 1) Hu H1) as [Y _]. cbn [uval from_word] in Y. destruct Y as [Y _]; [lia|].
        destruct Y as (by_ & -> & Hby & Vby); [apply ubig_ok_val in Hu; lia|]. cbn [bind].
        apply (main2 (u', from_word 1, from_word 0) (r, bx, by_)).
        -- cbn [tri_ok]. do 3 (split; [auto|]). unfold binv. cbn [uval from_word]. lia.
        -- cbn [tri_ok]. do 3 (split; [auto|]). unfold binv. rewrite Vbx, Vby. split; [lia|]. split; [lia|]. split; [|lia]. nia.
        -- unfold tri_a; cbn [fst]. destruct (Z.odd (uval u')) eqn:Q; [auto|]. right. rewrite Vu' in Q.
           destruct Ouv as [U|U]; [congruence|]. rewrite DM, Z.odd_add, Z.odd_mul, Q in U. destruct (Z.odd (uval r)); [auto|discriminate].
        -- unfold tri_a; cbn [fst]. rewrite Vu', Vr. rewrite (Z.gcd_comm (uval u) (_ mod _)), Z.gcd_mod by lia. auto.
      * destruct (ubig_div_rem_rr_yields u v Hu Hv) as [_ Y]. destruct Y as (q & r & -> & Hq & Hr & Vq & Vr); [lia|]. cbn [bind].
        destruct (ubig_clone_spec v Hv) as (v' & -> & Hv' & Vv'). cbn [bind].
        pose proof (Z.div_mod (uval u) (uval v) ltac:(lia)) as DM. pose proof (Z.mod_pos_bound (uval u) (uval v) Pv) as MB.
        rewrite <- Vq, <- Vr in DM. rewrite <- Vr in MB.
        assert (1 <= uval q <= uval u) as Bq by nia.
        destruct (ubig_sub_rv_yields u (from_word 1) Hu H1) as [Y _]. cbn [uval from_word] in Y. destruct Y as [Y _]; [lia|].
        destruct Y as (by_ & -> & Hby & Vby); [apply ubig_ok_val in Hu; lia|]. cbn [bind].
        apply (main2 (v', v', by_) (r, from_word 1, q)).
        -- cbn [tri_ok]. do 3 (split; [auto|]). unfold binv. rewrite Vv', Vby. nia.
        -- cbn [tri_ok]. do 3 (split; [auto|]). unfold binv. cbn [uval from_word]. lia.
        -- unfold tri_a; cbn [fst]. destruct (Z.odd (uval v')) eqn:Q; [auto|]. right. rewrite Vv' in Q.
           destruct Ouv as [U|U]; [|congruence]. rewrite DM, Z.odd_add, Z.odd_mul, Q in U. destruct (Z.odd (uval r)); [auto|discriminate].
        -- unfold tri_a; cbn [fst]. rewrite Vv', Vr. rewrite (Z.gcd_comm (uval v) (_ mod _)), Z.gcd_mod by lia. apply Z.gcd_comm.
Qed.

Definition ibezout (a b : Z) (r : ibig * ibig * ibig) : Prop :=
  let '(g, x, y) := r in
  ibig_ok g /\ ibig_ok x /\ ibig_ok y /\ ival g = Z.gcd a b /\ a * ival x + b * ival y = ival g /\
  Z.abs (ival x) <= Z.max (Z.abs b) 1 /\ Z.abs (ival y) <= Z.max (Z.abs a) 1.

Lemma ibig_extended_gcd_spec a b : ibig_ok a -> ibig_ok b ->
  (ival a = 0 /\ ival b = 0 -> ibig_extended_gcd a b = Panic GcdOfZeros) /\
  (ival a <> 0 \/ ival b <> 0 -> forall i, 0 <= i -> (2 ^ i | ival a) -> (2 ^ i | ival b) ->
   or_large (2 * Z.max (Z.abs (ival a) / 2 ^ i) (Z.abs (ival b) / 2 ^ i)) (ibig_extended_gcd a b) (ibezout (ival a) (ival b))).
Proof.
  intros [Ha _] [Hb _]. unfold ibig_extended_gcd. destruct (ubig_extended_gcd_spec _ _ Ha Hb) as [G0 G1].
  assert (M : forall z, ubig_ok (imag z) -> Z.abs (ival z) = uval (imag z)).
  { intros z Hz. apply uval_nonneg in Hz. unfold ival; destruct (isign z); cbn [sign_val]; lia. }
  pose proof (M a Ha) as Ma. pose proof (M b Hb) as Mb. split.
  - intros H. rewrite G0 by lia. reflexivity.
  - intros H i Hi Ia Ib. apply Z.divide_abs_r in Ia, Ib. rewrite Ma in Ia. rewrite Mb in Ib.
    destruct (G1 ltac:(lia) i Hi Ia Ib) as [(r & -> & R)|[-> L]]; [|right; split; [reflexivity|rewrite Ma, Mb; exact L]]. cbn [bind]. destruct r as [[g x] y].
    destruct R as (Hg & Hx & Hy & Vg & E & Bx & By). apply or_large_ok. unfold ibezout.
    destruct (ibig_from_ubig_spec g Hg) as [O V].
    destruct (sign_ops x (isign a) Hx) as (_ & _ & _ & _ & _ & _ & _ & (x' & Ex & Hx' & Vx)). injection Ex as <-.
    destruct (sign_ops y (isign b) Hy) as (_ & _ & _ & _ & _ & _ & _ & (y' & Ey & Hy' & Vy)). injection Ey as <-.
    split; [auto|]. split; [auto|]. split; [auto|]. rewrite V.
    split; [rewrite Vg, <- (Z.gcd_abs_l (ival a)), <- (Z.gcd_abs_r _ (ival b)), Ma, Mb; reflexivity|].
    rewrite Vx, Vy. split; [rewrite <- E; unfold ival; destruct (isign a), (isign b); cbn [sign_val]; ring|].
    assert (ab : forall s z, Z.abs (sign_val s * z) = Z.abs z) by (intros [|] ?; cbn [sign_val]; lia).
    rewrite !ab, Ma, Mb. auto.
Qed.


Lemma or_large_fits {T} n (r : res T) P : or_large n r P -> n < MAXV -> exists t, r = Ok t /\ P t.
Proof. intros [H|[_ H]] L; [auto|lia]. Qed.

(** ** extended_gcd at the limit *)

(** The first halving step adds the largest number to an odd coefficient. *)
Lemma extended_gcd_limit b : ubig_ok b -> uval b = MAXV - 1 -> ubig_extended_gcd (Small 2) b = Panic NumberTooLarge.
Proof.
  intros Hb Vb. pose proof two_ok as H2. pose proof two_MAXV as L2. pose proof one_ok as H1.
  assert (Ob : Z.odd (uval b) = true).
  { rewrite Vb, Z.odd_sub. pose proof MAXV_even as M. pose proof (Zmod_odd MAXV) as Q. rewrite M in Q.
    destruct (Z.odd MAXV); [lia|reflexivity]. }
  unfold ubig_extended_gcd.
  destruct (ubig_trailing_zeros_spec (Small 2) H2) as [_ A1]. destruct (ubig_trailing_zeros_spec b Hb) as [_ B1].
  cbn [uval] in A1. destruct A1 as (j & -> & Oa); [lia|]. destruct B1 as (k & -> & Ob'); [lia|]. cbn [bind].
  assert (k = 0) as ->.
  { destruct (odd_part_odd _ _ Ob') as (Hk & p & Hp & Op & E & _). destruct (Z.eq_dec k 0) as [|N]; [auto|].
    rewrite E, Z.odd_mul, Op in Ob. rewrite Z.odd_pow in Ob by lia. discriminate. }
  assert (Hj : 0 <= j) by apply Oa. rewrite Z.min_r by exact Hj.
  destruct (shr_returns (ubig_shr_r (Small 2) 0) (Small 2) 0 H2 ltac:(lia)) as (u & -> & Hu & Vu); [apply ubig_shr_r_yields; auto; lia|].
  destruct (shr_returns (ubig_shr_r b 0) b 0 Hb ltac:(lia)) as (v & -> & Hv & Vv); [apply ubig_shr_r_yields; auto; lia|].
  change (2 ^ 0) with 1 in Vu, Vv. rewrite Z.div_1_r in Vu, Vv. cbn [uval] in Vu. cbn [bind].
  rewrite ubig_le_spec by auto. cbn [bind]. assert (uval u <=? uval v = true) as -> by lia.
  destruct (ubig_div_rem_rr_yields v u Hv Hu) as [_ Y]. destruct Y as (q & r & -> & Hq & Hr & Vq & Vr); [lia|]. cbn [bind].
  destruct (ubig_clone_spec u Hu) as (u' & -> & Hu' & Vu'). cbn [bind].
  pose proof (Z.div_mod (uval v) (uval u) ltac:(lia)) as DM. pose proof (Z.mod_pos_bound (uval v) (uval u) ltac:(lia)) as MB.
  rewrite <- Vq, <- Vr in DM. rewrite <- Vr in MB.
  destruct (ubig_sub_rv_yields v q Hv Hq) as [Y _]. destruct Y as [Y _]; [lia|].
  destruct Y as (bx & -> & Hbx & Vbx); [apply ubig_ok_val in Hv; lia|]. cbn [bind].
  destruct (ubig_sub_rv_yields u (from_word 1) Hu H1) as [Y _]. cbn [uval from_word] in Y. destruct Y as [Y _]; [lia|].
  destruct Y as (by_ & -> & Hby & Vby); [apply ubig_ok_val in Hu; lia|]. cbn [bind].
  rewrite is_odd_spec by auto. cbn [bind].
  assert (Or : Z.odd (uval r) = true).
  { rewrite <- Vv, DM, Vu, Z.odd_add, Z.odd_mul in Ob. destruct (Z.odd (uval r)); [auto|discriminate]. }
  rewrite Or.
  destruct (gcd_fuel_spec u' r Hu' Hr) as (f & -> & _). cbn [egcd_loop].
  assert (ubig_eqb u' (from_word 0) = false) as ->.
  { destruct (ubig_eqb u' (from_word 0)) eqn:C; auto. apply ubig_is_zero in C; auto. lia. }
  destruct (gcd_fuel_spec u' u' Hu' Hu') as (f' & -> & _). cbn [halve_loop].
  rewrite !is_odd_spec by auto. cbn [bind]. rewrite Vu', Vu. cbn [Z.odd bind from_word uval].
  change (Z.odd 2) with false. change (Z.odd 1) with true. cbv iota. cbn [bind].
  destruct (ubig_add_vr_yields (from_word 1) v one_ok Hv) as [_ Y]. unfold ubig_add_assign_r. cbn [uval from_word] in Y.
  rewrite Y by lia. reflexivity.
Qed.

End Gcd.
