(** Clients of the whole library on a platform with much larger numbers. *)
From Coq Require Import ZArith List Lia.
From Verif Require Import Model.Base Model.Buffer Model.UBig Model.IBig Model.Gcd Model.Parse Model.Fmt Model.Modular Model.ModularFmt Model.Program Model.Client
  Spec.Val Spec.Num Spec.Prim Spec.Digits Spec.Text Spec.FmtText Spec.ModularText Spec.Float Spec.Ideal Spec.ParseResult Spec.Modular Spec.Abstract Spec.Portable Spec.PortableApp
  Proofs.Basics Proofs.BufferProofs Proofs.ModularProofs Proofs.ParseProofs Proofs.ParseApi Proofs.PortableProofs Proofs.GcdApi Proofs.GcdPortable Proofs.ClientProofs
  Proofs.PortableAppProofs.
Import ListNotations.
Open Scope Z_scope.

(** The second outcome is the first one, unless that is a lack of space. *)
Definition upward {T} (a b : res T) : Prop := a = b \/ a = Panic NumberTooLarge \/ a = Panic OutOfMemory.

Lemma upward_refl {T} (a : res T) : upward a a.
Proof. left. reflexivity. Qed.
Lemma upward_same {T} (a b c : res T) : b = a -> c = a -> upward b c.
Proof. intros -> ->. apply upward_refl. Qed.
Lemma upward_eq {T} (a b c d : res T) : upward a b -> c = a -> d = b -> upward c d.
Proof. congruence. Qed.
Lemma upward_bind {T U} (a b : res T) (f : T -> res U) : upward a b -> upward (bind a f) (bind b f).
Proof. intros [-> |[-> | ->]]; [apply upward_refl|right; left; reflexivity|right; right; reflexivity]. Qed.
Lemma upward_form {X Y S} (l1 : list X) (l2 : list Y) k (s : S) (a b : res (S * obs)) : length l1 = length l2 -> upward a b ->
  upward (with_form l1 k s (fun _ => a)) (with_form l2 k s (fun _ => b)).
Proof.
  intros L H. unfold with_form. destruct (nth_error l1 k) eqn:E1, (nth_error l2 k) eqn:E2; [exact H| | |apply upward_refl].
  - apply nth_error_None in E2. assert (nth_error l1 k <> None) as N by congruence. apply nth_error_Some in N. lia.
  - apply nth_error_None in E1. assert (nth_error l2 k <> None) as N by congruence. apply nth_error_Some in N. lia.
Qed.

Section Roomier.
Context (A1 A2 : Arch) {O1 : ArchOk A1} {O2 : ArchOk A2} (RM : roomier A1 A2).

Notation U := (2 ^ @ubits A1).
Notation M1 := (@MAXV A1).
Notation M2 := (@MAXV A2).

Lemma U_ge : 65536 <= U.
Proof. pose proof (ubits_ge (A := A1)). change 65536 with (2 ^ 16). apply Z.pow_le_mono_r; lia. Qed.
Lemma M1_le : M1 <= 2 ^ U.
Proof. unfold MAXV. pose proof (MAX_BIT_LEN_usize (A := A1)) as H. apply Z.pow_le_mono_r; [reflexivity|apply Z.lt_le_incl, H]. Qed.
Lemma M2_ge : 2 ^ (8 * U) <= M2.
Proof. unfold MAXV. apply Z.pow_le_mono_r; [reflexivity|]. rewrite Z.mul_comm. rewrite (Z.mul_comm _ (@MAX_LEN A2)) . rewrite Z.mul_comm. exact RM. Qed.
Lemma M_scaled k : 0 <= k <= 7 * U -> M1 * 2 ^ k <= M2.
Proof.
  intros [K0 K1]. pose proof M1_le as L1. pose proof M2_ge as L2. pose proof U_ge as L3. revert K1 L1 L2 L3. generalize U M1 M2. clear - K0. intros u a b K1 L1 L2 L3.
  apply Z.le_trans with (2 ^ u * 2 ^ k); [apply Z.mul_le_mono_nonneg_r; [apply Z.pow_nonneg; lia|exact L1]|].
  rewrite <- (Z.pow_add_r 2 u k) by lia. apply Z.le_trans with (2 ^ (8 * u)); [apply Z.pow_le_mono_r; lia|exact L2].
Qed.
Lemma M_le : M1 <= M2.
Proof. pose proof U_ge. pose proof (M_scaled 0) as H0. rewrite Z.mul_1_r in H0. apply H0. lia. Qed.
Lemma M_lt : 2 * M1 < M2.
Proof.
  pose proof U_ge. pose proof (M_scaled 2 ltac:(lia)) as H0. change (2 ^ 2) with 4 in H0. pose proof (MAXV_pos (A := A1)) as P. revert H0 P. generalize M1 M2. clear. intros. lia.
Qed.

Lemma upward_fits z : upward (fits (A := A1) z) (fits (A := A2) z).
Proof.
  unfold fits, upward. destruct (Z.ltb_spec z M1) as [L|L]; [|auto].
  rewrite (proj2 (Z.ltb_lt _ _)) by (exact (Z.lt_le_trans _ _ _ L M_le)). auto.
Qed.
Lemma upward_ifits z : upward (ifits (A := A1) z) (ifits (A := A2) z).
Proof.
  unfold ifits, upward. destruct (Z.ltb_spec (Z.abs z) M1) as [L|L]; [|auto].
  rewrite (proj2 (Z.ltb_lt _ _)) by (exact (Z.lt_le_trans _ _ _ L M_le)). auto.
Qed.
Lemma upward_fits_nat z : upward (fits_nat (A := A1) z) (fits_nat (A := A2) z).
Proof. unfold fits_nat. destruct (z <? 0); [apply upward_refl|apply upward_fits]. Qed.
Lemma upward_fits_unsigned z : upward (fits_unsigned (A := A1) z) (fits_unsigned (A := A2) z).
Proof.
  unfold fits_unsigned. destruct (z <? 0); [|apply upward_fits]. unfold upward. destruct (Z.ltb_spec (- z) M1) as [L|L]; [|auto].
  rewrite (proj2 (Z.ltb_lt _ _)) by (exact (Z.lt_le_trans _ _ _ L M_le)). auto.
Qed.
Lemma buffers_le : @wbits A1 * (@MAX_LEN A1 + 4) <= @wbits A2 * (@MAX_LEN A2 + 4).
Proof.
  pose proof (MAX_BIT_LEN_usize (A := A1)) as H. pose proof U_ge as G. pose proof RM as R. unfold roomier, MAX_BIT_LEN in R.
  pose proof (wbits_ge (A := A2)) as W2. pose proof (wbits_ge (A := A1)) as W1. revert H G R W1 W2. generalize U (@MAX_LEN A1) (@MAX_LEN A2) (@wbits A1) (@wbits A2). clear. intros. nia.
Qed.
Lemma upward_bytes be bs : upward (bytes_ideal (A := A1) be bs) (bytes_ideal (A := A2) be bs).
Proof.
  unfold bytes_ideal. pose proof buffers_le as L. destruct (Z.leb_spec (8 * Z.of_nat (length bs)) (@wbits A1 * (@MAX_LEN A1 + 4))) as [H|H]; [|right; left; reflexivity].
  rewrite (proj2 (Z.leb_le _ _)) by (exact (Z.le_trans _ _ _ H L)). apply upward_fits.
Qed.
Lemma upward_de es a b : upward a b -> upward (de_outcome (A := A1) es a) (de_outcome (A := A2) es b).
Proof.
  unfold de_outcome. pose proof buffers_le as L. destruct (Z.leb_spec (64 * Z.of_nat (length es)) (@wbits A1 * (@MAX_LEN A1 + 4))) as [H|H]; [|right; left; reflexivity].
  rewrite (proj2 (Z.leb_le _ _)) by (exact (Z.le_trans _ _ _ H L)). auto.
Qed.

Lemma upward_step i s r1 r2 : istep (A := A1) i s = Some r1 -> istep (A := A2) i s = Some r2 -> upward r1 r2.
Proof.
  intros E1 E2.
  assert (forall d a b, upward a b -> upward (iputu s d a) (iputu s d b)) as PU by (intros; apply upward_bind; auto).
  assert (forall d a b, upward a b -> upward (iputi s d a) (iputi s d b)) as PI by (intros; apply upward_bind; auto).
  pose proof upward_fits as F1. pose proof upward_ifits as F2. pose proof upward_fits_nat as F3. pose proof upward_fits_unsigned as F4.
  destruct i; cbn [istep] in E1, E2;
    try (destruct (_ && _ && _) in E1; [discriminate E1|]; destruct (_ && _ && _) in E2; [discriminate E2|]);
    injection E1 as <-; injection E2 as <-; try apply upward_refl;
    try (apply upward_form; [first [apply len1|apply len2|apply len3|apply len4|apply len5|apply len6|apply len7|apply len8|apply len9|apply len10|apply len11|cbn [length udiv_rem_fns iprim_div_rem2_fns]; reflexivity]|]);
    try apply PU; try apply PI; try apply upward_refl; auto.
  - destruct op; cbn; auto using upward_refl.
  - destruct op; cbn; auto using upward_refl.
  - apply upward_bytes.
  - destruct op, sg; cbn; auto using upward_refl.
  - destruct op; cbn; auto using upward_refl.
  - destruct op; cbn; auto using upward_refl.
  - destruct op; cbn; auto using upward_refl.
Qed.

(** ** Bounds of the state *)
Definition bounded (s : aworld) : Prop :=
  (forall k, 0 <= uz (num_of s) k < M1) /\ (forall k, Z.abs (iz (num_of s) k) < M1) /\
  (forall k id n, ring_at s k = Some (id, n) -> 0 < n < M1) /\
  (forall k id n a, elem_at s k = Some (id, n, a) -> 0 < n < M1).

Lemma depicts_bounded w s : depicts (A := A1) w s -> bounded s.
Proof.
  intros (known & [HU HI] & F & R & M). split; [|split; [|split]].
  - intros k. destruct (HU k) as [Ua <-]. apply ubig_ok_val, Ua.
  - intros k. destruct (HI k) as [Ua <-]. apply ibig_ok_val, Ua.
  - intros k id n E. specialize (R k). rewrite E in R. destruct (rings w k); [|contradiction]. destruct R as (R & _). split; [apply Z.lt_le_trans with 1; [reflexivity|]; exact (is_ring_pos (A := A1) _ _ R)|].
    destruct R as (u & Hu & <- & _). apply ubig_ok_val, Hu.
  - intros k id n a E. specialize (M k). rewrite E in M. destruct (mods w k); [|contradiction]. clear R; destruct M as ((R & _) & _). split; [apply Z.lt_le_trans with 1; [reflexivity|]; exact (is_ring_pos (A := A1) _ _ R)|].
    destruct R as (u & Hu & <- & _). apply ubig_ok_val, Hu.
Qed.

Lemma log2_lt n : n < M1 -> Z.log2 n < U.
Proof.
  intros H. pose proof U_ge. destruct (Z.le_gt_cases n 0) as [L|L]; [rewrite Z.log2_nonpos by exact L; lia|].
  apply (proj1 (Z.log2_lt_pow2 n U L)). exact (Z.lt_le_trans _ _ _ H M1_le).
Qed.

Lemma space_enough k e : 0 < k -> k * @wbits A2 <= U + 64 -> 0 <= e <= U / 2 -> block_fits (A := A2) (e * k + (2 * k + product_scratch k)) = true.
Proof.
  intros K1 K2 E.
  assert (0 <= product_scratch k <= 17 * k) as S.
  { clear - K1. unfold product_scratch. assert (0 <= Z.log2_up k <= k) by (split; [apply Z.log2_up_nonneg|]; apply Z.log2_up_le_pow2; [lia|]; apply Z.lt_le_incl, Z.pow_gt_lin_r; lia).
    destruct (k <=? 24); [lia|]. destruct (k <=? 192); lia. }
  unfold block_fits. apply Z.ltb_lt.
  assert (8 * ((e * k + (2 * k + product_scratch k)) * (@wbits A2 / 8)) <= (U / 2 + 19) * (U + 64)) as L.
  { assert (8 * (@wbits A2 / 8) = @wbits A2) as W by (destruct (wbits_cases (A := A2)) as [-> |[-> | ->]]; reflexivity). pose proof (wbits_ge (A := A2)) as G.
    assert (e * k + (2 * k + product_scratch k) <= (U / 2 + 19) * k) by nia.
    pose proof (Z.div_pos U 2 ltac:(pose proof U_ge; lia) ltac:(lia)).
    apply Z.le_trans with ((U / 2 + 19) * k * @wbits A2); [rewrite <- W; nia|]. nia. }
  assert ((U / 2 + 19) * (U + 64) < 8 * 2 ^ (@ubits A2 - 1)); [|lia].
  clear - RM O1 O2. pose proof (MAX_BIT_LEN_usize (A := A2)) as H. pose proof RM as R. unfold roomier, MAX_BIT_LEN in R. rewrite Z.mul_comm in R.
  assert (8 * U < 2 ^ @ubits A2) as Q by (rewrite (Z.mul_comm 8 U); rewrite (Z.mul_comm U 8); apply Z.le_lt_trans with (2 := H); rewrite Z.mul_comm; rewrite (Z.mul_comm (@wbits A2)); exact R).
  revert Q. clear - O1 O2. destruct (ubits_cases (A := A1)) as [-> |[-> | ->]], (ubits_cases (A := A2)) as [-> |[-> | ->]]; vm_compute; congruence.
Qed.

Lemma words_bound n : 0 < n < M1 -> 0 < words_in (A := A2) n /\ words_in (A := A2) n * @wbits A2 <= U + 64.
Proof.
  intros [P L]. pose proof (log2_lt n L) as L2. pose proof (Z.log2_nonneg n) as L0. pose proof (wbits_ge (A := A2)) as W. pose proof (wbits_ge (A := A2)) as W'. unfold words_in.
  pose proof (Z.div_pos (Z.log2 n) (@wbits A2) L0 ltac:(lia)). pose proof (Z.mul_div_le (Z.log2 n) (@wbits A2) ltac:(lia)). split; [lia|]. nia.
Qed.
Lemma mul_room n : 0 < n < M1 -> room_for_mul (A := A2) n = true.
Proof.
  intros H. destruct (words_bound n H) as [P L]. unfold room_for_mul, mul_words. apply Bool.orb_true_iff. right.
  rewrite <- (Z.add_0_l (2 * _ + _)). change 0 with (0 * words_in (A := A2) n) at 1. apply space_enough; auto. pose proof U_ge. split; [lia|]. apply Z.div_pos; lia.
Qed.
Lemma pow_room n e : 0 < n < M1 -> e < M1 -> room_for_pow (A := A2) n e = true.
Proof.
  intros H He. destruct (words_bound n H) as [P L]. unfold room_for_pow, mul_words. apply Bool.orb_true_iff. right. apply space_enough; auto.
  pose proof (log2_lt e He). pose proof (Z.log2_nonneg e). split; [apply Z.div_pos; lia|apply Z.div_le_mono; lia].
Qed.
Lemma enters_bound n v : v < M1 -> enters (A := A2) n v = true.
Proof.
  intros H. unfold enters. apply Bool.orb_true_iff. right. apply Z.ltb_lt.
  pose proof (wbits_ge (A := A2)). pose proof (wbits_ge (A := A2)). pose proof (Z.mod_pos_bound (- ibitlen n) (@wbits A2) ltac:(lia)) as K.
  set (k := (- ibitlen n) mod @wbits A2) in *. pose proof U_ge. apply Z.lt_le_trans with (M1 * 2 ^ k); [|apply M_scaled; lia].
  apply Z.mul_lt_mono_pos_r; [apply Z.pow_pos_nonneg; lia|exact H].
Qed.
Lemma not_overlong r (t : list Z) : 2 <= r <= 36 -> Z.of_nat (length t) < 2 ^ (@ubits A1 - 1) -> r ^ (Z.of_nat (length t) - 1) < M2.
Proof.
  intros R T. pose proof (ubits_ge (A := A1)) as G. assert (2 * 2 ^ (@ubits A1 - 1) = U) as D by (rewrite <- Z.pow_succ_r by lia; f_equal; lia).
  destruct (Z.eq_dec (Z.of_nat (length t)) 0) as [E|E]; [rewrite E, Z.pow_neg_r by lia; apply MAXV_pos|].
  pose proof U_ge as UG. apply Z.lt_le_trans with (2 := M2_ge). apply Z.le_lt_trans with ((2 ^ 6) ^ (Z.of_nat (length t) - 1)); [apply Z.pow_le_mono_l; lia|].
  rewrite <- Z.pow_mul_r by lia. apply Z.pow_lt_mono_r; lia.
Qed.

Lemma sans_zeros_length t : (length (sans_zeros t) <= length t)%nat.
Proof. induction t as [|c t IH]; [auto|]. cbn [sans_zeros]. destruct (c =? 48); cbn; lia. Qed.
Lemma upward_reading r t s g1 g2 o1 o2 : 2 <= r <= 36 -> Z.of_nat (length t) < 2 ^ (@ubits A1 - 1) -> (forall v, upward (g1 v) (g2 v)) ->
  reading (A := A1) r t s g1 o1 -> reading (A := A2) r t s g2 o2 -> upward o1 o2.
Proof.
  intros R T G.
  assert (M2 <= r ^ (Z.of_nat (length (sans_zeros t)) - 1) -> False) as V.
  { intros H. pose proof (sans_zeros_length t). apply (Z.lt_irrefl M2), (Z.le_lt_trans _ _ _ H), not_overlong; lia. }
  intros [(v & Nv & ->)|[[-> ->]|(NE & N & H1)]] [(w & Nw & ->)|[[E ->]|(NE' & N' & H2)]]; try (exfalso; congruence).
  - rewrite (numeral_unique r t v w Nv Nw). apply G.
  - subst t. destruct Nv as [H _]. congruence.
  - destruct (N' v Nv).
  - destruct Nw as [H _]. congruence.
  - apply upward_refl.
  - destruct (N w Nw).
  - destruct H2 as [-> |[_ H2]]; [|destruct (V H2)]. destruct H1 as [-> |[-> _]]; unfold upward; auto.
Qed.

Lemma prefixed_radix s r t : prefixed s r t -> 2 <= r <= 36 /\ (length t <= length s)%nat.
Proof. unfold prefixed. intros H. decompose [and or] H; subst; cbn; lia. Qed.
Lemma after_plus_length t : (length (after_plus t) <= length t)%nat.
Proof. destruct t as [|c t]; [auto|]. cbn. destruct (c =? 43); cbn; lia. Qed.
Lemma after_sign_length t : (length (snd (after_sign t)) <= length t)%nat.
Proof. destruct t as [|c t]; [auto|]. cbn. destruct (c =? 43), (c =? 45); cbn; lia. Qed.

Lemma upward_dividing s d id n x y m b dn1 st1 dn2 st2 o1 o2 : (b = true -> n = m) -> 0 < m < M1 -> (b = true -> dn2 = true /\ st2 = false) ->
  dividing (A := A1) s d id n x y m b dn1 st1 o1 -> dividing (A := A2) s d id n x y m b dn2 st2 o2 -> upward o1 o2.
Proof.
  intros En Hm Hb H1 [(G2 & B2 & D2 & c2 & R2 & E2 & ->)|[(G2 & B2 & D2 & ->)|[(G2 & B2 & ->)|[(G2 & ->)|(_ & L)]]]].
  - destruct H1 as [(G1 & B1 & D1 & c1 & R1 & E1 & ->)|[(G1 & B1 & D1 & ->)|[(G1 & B1 & ->)|[(G1 & ->)|(-> & _)]]]]; try (unfold upward; auto; fail); try (exfalso; congruence).
    specialize (En B1). subst m. rewrite (quotient_unique n c1 c2 x y); auto. apply upward_refl.
  - destruct (Hb B2). congruence.
  - destruct H1 as [(G1 & B1 & D1 & c1 & R1 & E1 & ->)|[(G1 & B1 & D1 & ->)|[(G1 & B1 & ->)|[(G1 & ->)|(-> & _)]]]]; try (unfold upward; auto; fail); try (exfalso; congruence).
  - destruct H1 as [(G1 & B1 & D1 & c1 & R1 & E1 & ->)|[(G1 & B1 & D1 & ->)|[(G1 & B1 & ->)|[(G1 & ->)|(-> & _)]]]]; try (unfold upward; auto; fail); try (exfalso; congruence).
  - pose proof M_lt as Q. exfalso. revert Q L Hm. generalize M1 M2. clear. intros. lia.
Qed.

Lemma upward_allowed c s o1 o2 : coherent s -> bounded s -> portable_call c -> call_ok (A := A1) c -> extended c = false ->
  allowed (A := A1) c s o1 -> allowed (A := A2) c s o2 -> upward o1 o2.
Proof.
  intros [HU HM] (BU & BI & BR & BM) P CO NE.
  assert (forall d a b x, upward a b -> upward (store_u s d a x) (store_u s d b x)) as SU by (intros; apply upward_bind; auto).
  assert (forall d a b x, upward a b -> upward (store_i s d a x) (store_i s d b x)) as SI by (intros; apply upward_bind; auto).
  destruct c; cbn [allowed portable_call extended call_ok] in *; try contradiction; try discriminate; try apply upward_same;
    try (unfold given; destruct (ring_at s r) as [[id n]|] eqn:Er; try apply upward_same);
    try (unfold given; destruct (elem_at s x) as [[[id n] v]|] eqn:Ex; try apply upward_same).
  - pose proof (upward_step i (num_of s)) as AL.
    assert (forall (X : Arch), ArchOk X -> istep (A := X) i (num_of s) <> None) as NN.
    { intros X OX. pose proof (wbits_ge (A := X)) as W. destruct i; try discriminate. cbn [istep].
      rewrite (proj2 (Z.leb_gt _ _)) by lia. discriminate. }
    pose proof (NN A1 O1) as N1. pose proof (NN A2 O2) as N2.
    destruct (istep (A := A1) i (num_of s)) as [r1|]; [|congruence]. destruct (istep (A := A2) i (num_of s)) as [r2|]; [|congruence].
    specialize (AL r1 r2 eq_refl eq_refl). apply upward_eq, upward_bind, AL.
  - destruct (valid_radix_spec radix); [|apply upward_same]. pose proof (after_plus_length s0). apply upward_reading; [lia|lia|]. intros. apply SU, upward_fits.
  - destruct (valid_radix_spec radix); [|apply upward_same]. pose proof (after_sign_length s0). destruct (after_sign s0) as [sg t]. cbn [snd] in *.
    apply upward_reading; [lia|lia|]. intros. apply SI, upward_ifits.
  - intros (r & b & Q & H1) (r' & b' & Q' & H2). destruct (prefixed_fun _ _ _ _ _ Q Q') as [<- <-]. pose proof (after_plus_length s0). pose proof (prefixed_radix _ _ _ Q).
    eapply upward_reading; [| | |exact H1|exact H2]; [lia|lia|]. intros. apply SU, upward_fits.
  - pose proof (after_sign_length s0). destruct (after_sign s0) as [sg t]. cbn [snd] in *. intros (r & b & Q & H1) (r' & b' & Q' & H2). destruct (prefixed_fun _ _ _ _ _ Q Q') as [<- <-].
    pose proof (prefixed_radix _ _ _ Q). eapply upward_reading; [| | |exact H1|exact H2]; [lia|lia|]. intros. apply SI, upward_ifits.
  - intros (x & T1 & ->) (y & T2 & ->). rewrite (trait_text_unique _ _ _ x y T1 T2). apply upward_refl.
  - intros (x & T1 & ->) (y & T2 & ->). rewrite (trait_text_unique _ _ _ x y T1 T2). apply upward_refl.
  - destruct (valid_radix_spec radix); [|apply upward_same]. intros (x & T1 & ->) (y & T2 & ->). rewrite (shows_unique f radix _ _ _ x y ltac:(lia) T1 T2). apply upward_refl.
  - destruct (valid_radix_spec radix); [|apply upward_same]. intros (x & T1 & ->) (y & T2 & ->). rewrite (shows_unique f radix _ _ _ x y ltac:(lia) T1 T2). apply upward_refl.
  - intros (x & T1 & ->) (y & T2 & ->). rewrite (float_unique _ _ _ x y (HU a) T1 T2). apply upward_refl.
  - intros (x & T1 & ->) (y & T2 & ->). rewrite (float_unique _ _ _ x y (Z.abs_nonneg _) T1 T2). apply upward_refl.
  - intros (x & T1 & ->) (y & T2 & ->). rewrite (serial_unique _ x y T1 T2). apply upward_refl.
  - intros (x & T1 & ->) (y & T2 & ->). rewrite (serial_unique _ x y T1 T2). apply upward_refl.
  - apply upward_eq, SU, upward_de, upward_fits.
  - apply upward_eq, SI, upward_de. destruct s0; apply upward_ifits.
  - destruct (ring_at s s0) as [[id' n']|]; apply upward_same.
  - intros (x & (x1 & T1 & [= ->]) & ->) (y & (y1 & T2 & [= ->]) & ->). rewrite (trait_text_unique _ _ _ x1 y1 T1 T2). apply upward_refl.
  - apply upward_eq. rewrite (enters_bound n (uz (num_of s) a)) by apply BU. destruct (enters _ _); unfold upward; auto.
  - apply upward_eq. rewrite (enters_bound n (Z.abs (iz (num_of s) a))) by apply BI. destruct (enters _ _); unfold upward; auto.
  - destruct (elem_at s y) as [[[id' n'] v']|] eqn:Ey; [|apply upward_same]. destruct (k <? 6)%nat; [|apply upward_same].
    pose proof (BM _ _ _ _ Ex) as Bn. pose proof (BM _ _ _ _ Ey) as Bn'. unfold mbin_outcome. rewrite (mul_room n Bn). destruct op; try apply upward_same.
    + apply upward_eq. cbn [negb]. rewrite Bool.andb_false_r. destruct (_ && _); unfold upward; auto.
    + apply upward_dividing; [|exact Bn'|auto]. intros E. apply Z.eqb_eq in E as <-. eapply HM; eauto.
  - pose proof (BM _ _ _ _ Ex) as Bn. rewrite (pow_room n _ Bn) by apply BU. intros [-> |[-> _]] [-> |[_ H]]; try discriminate; unfold upward; auto.
  - pose proof (BM _ _ _ _ Ex) as Bn. pose proof (BI a) as Be. destruct (Z.leb_spec 0 (iz (num_of s) a)) as [L|L].
    + rewrite (pow_room n _ Bn) by lia. intros [-> |[-> _]] [-> |[_ H]]; try discriminate; unfold upward; auto.
    + rewrite (pow_room n (- _) Bn) by lia. apply upward_dividing; auto.
  - intros [(G1 & c1 & R1 & E1 & ->)|[(G1 & ->)|(-> & H)]] [(G2 & c2 & R2 & E2 & ->)|[(G2 & ->)|(_ & H')]];
      try (unfold upward; auto; fail); try (exfalso; congruence).
    + rewrite (quotient_unique n c1 c2 1 v); auto; [apply upward_refl|rewrite Z.mul_comm; auto..].
    + pose proof (BM _ _ _ _ Ex) as Bn. pose proof M_lt as Q. exfalso. revert Q H' Bn. generalize M1 M2. clear. intros. lia.
    + pose proof (BM _ _ _ _ Ex) as Bn. pose proof M_lt as Q. exfalso. revert Q H' Bn. generalize M1 M2. clear. intros. lia.
  - destruct (elem_at s y) as [[[id' n'] v']|]; apply upward_same.
  - destruct (elem_at s m) as [[[id' n'] v']|]; apply upward_same.
  - intros (a & (x1 & y1 & T1 & T1' & [= ->]) & ->) (b & (x2 & y2 & T2 & T2' & [= ->]) & ->).
    rewrite (trait_text_unique _ _ _ x1 x2 T1 T2), (trait_text_unique _ _ _ y1 y2 T1' T2'). apply upward_refl.
Qed.

(** What is well-typed on the first platform is so on the second one. *)
Lemma call_ok_larger c : call_ok (A := A1) c -> call_ok (A := A2) c.
Proof.
  assert (@ubits A1 < @ubits A2) as L.
  { pose proof (MAX_BIT_LEN_usize (A := A2)) as H. pose proof RM as R. unfold roomier, MAX_BIT_LEN in R. rewrite (Z.mul_comm (@MAX_LEN A2)) in R. pose proof (ubits_ge (A := A1)).
    apply Z.nle_gt. intros K. assert (2 ^ @ubits A2 <= U) by (apply Z.pow_le_mono_r; lia). pose proof U_ge. lia. }
  assert (forall k, 0 <= k -> k < 2 ^ @ubits A1 -> k < 2 ^ @ubits A2) as L1.
  { intros k _ H. apply (Z.lt_le_trans _ _ _ H). apply Z.pow_le_mono_r; lia. }
  assert (2 ^ (@ubits A1 - 1) <= 2 ^ (@ubits A2 - 1)) as L2 by (apply Z.pow_le_mono_r; lia).
  assert (forall tb, prim_bits (A := A1) tb -> prim_bits (A := A2) tb) as PB.
  { clear - O1. intros tb. unfold prim_bits. destruct (ubits_cases (A := A1)) as [-> |[-> | ->]]; tauto. }
  destruct c; cbn [call_ok]; auto; try (intros H; apply (Z.lt_le_trans _ _ _ H L2)).
  - destruct i; cbn [instr_ok]; auto; (intros [H1 H2]; split; [first [exact H1|apply PB, H1]|first [exact H2|apply L1; assumption]]).
  - intros [H1 H2]. auto.
Qed.

Definition stepped (r1 r2 : res (world * seen)) : Prop :=
  match r1 with
  | Ok (w1, x) => exists w2 s, r2 = Ok (w2, x) /\ depicts (A := A1) w1 s /\ depicts (A := A2) w2 s
  | Panic p => lacks_space p \/ r2 = Panic p
  end.

Lemma call_carried be1 be2 c w1 w2 s : call_ok (A := A1) c -> portable_call c ->
  depicts (A := A1) w1 s -> depicts (A := A2) w2 s -> stepped (call_step (A := A1) be1 c w1) (call_step (A := A2) be2 c w2).
Proof.
  intros C1 P D1 D2. pose proof (call_ok_larger c C1) as C2. pose proof (depicts_bounded w1 s D1) as Bd. pose proof (depicts_coherent w1 s D1) as Co.
  pose proof (call_alike A1 A2 be1 be2 c w1 w2 s C1 C2 P D1 D2) as Q.
  pose proof (call_sim (A := A1) be1 c w1 s D1 C1) as S1. pose proof (call_sim (A := A2) be2 c w2 s D2 C2) as S2.
  assert (forall p, call_step (A := A2) be2 c w2 = Panic p -> lacks_space p -> exists q, call_step (A := A1) be1 c w1 = Panic q /\ lacks_space q) as K.
  { intros p E Lp. rewrite E in S2. cbn [crel] in S2. destruct (extended c) eqn:X.
    - exfalso.
      assert (forall a b good, Z.abs a < M1 -> Z.abs b < M1 -> (forall x y, good x y <> Panic p) -> ext_outcome (A := A2) a b good (Panic p) -> False) as N.
      { clear - Lp RM O1 O2. intros a b good Ba Bb G [(_ & _ & [= ->])|[(_ & x & y & _ & H)|(_ & H)]].
        - destruct Lp; discriminate.
        - exact (G x y (eq_sym H)).
        - specialize (H 0 ltac:(lia) (Z.divide_1_l _) (Z.divide_1_l _)). pose proof M_lt as Q. change (2 ^ 0) with 1 in H. revert H Q Ba Bb. generalize M1 M2. clear. intros. lia. }
      destruct Bd as (BU & BI & _). destruct c; try discriminate; cbn [allowed] in S2; (eapply N; [| | |exact S2]; [| |discriminate]); try apply BI.
      + rewrite Z.abs_eq; apply BU.
      + rewrite Z.abs_eq; apply BU.
    - destruct (call_step (A := A1) be1 c w1) as [[v1 x1]|q].
      + destruct S1 as (s1 & Al1 & G1). destruct (upward_allowed c s _ _ Co Bd P C1 X Al1 S2) as [H|[H|H]]; discriminate.
      + exists q. split; [reflexivity|]. destruct (upward_allowed c s _ _ Co Bd P C1 X S1 S2) as [H|[H|H]]; injection H as ->; unfold lacks_space; auto. }
  destruct (call_step (A := A1) be1 c w1) as [[v1 x1]|p1], (call_step (A := A2) be2 c w2) as [[v2 x2]|p2]; cbn [stepped same_step] in *.
  - destruct Q as (<- & s' & G1 & G2). exists v2, s'. auto.
  - destruct (K p2 eq_refl Q) as (q & H & _). discriminate.
  - auto.
  - destruct Q as [-> |[Q|Q]]; auto. destruct (K p2 eq_refl Q) as (q & [= ->] & H). auto.
Qed.

Lemma call_run_carried be1 be2 n c : app_ok (A := A1) c -> portable_app c ->
  forall tr w1 w2 s, depicts (A := A1) w1 s -> depicts (A := A2) w2 s ->
  carried_over A1 A2 (call_run (A := A1) be1 n c tr w1) (call_run (A := A2) be2 n c tr w2).
Proof.
  intros C1 P. induction n as [|n IH]; intros tr w1 w2 s D1 D2; cbn [call_run].
  { exists w2, s. auto. }
  destruct (c tr) as [c1|] eqn:E; [|exists w2, s; auto].
  pose proof (call_carried be1 be2 c1 w1 w2 s (C1 _ _ E) (P _ _ E) D1 D2) as Q.
  destruct (call_step (A := A1) be1 c1 w1) as [[v1 x1]|p1]; cbn [stepped bind] in *.
  - destruct Q as (v2 & s' & -> & G1 & G2). cbn [bind]. eapply IH; eauto.
  - destruct Q as [Q| ->]; [left; exact Q|right; reflexivity].
Qed.

End Roomier.
