(** Buffers and the canonical representation. *)
From Verif Require Import Model.Base Model.Words Model.Memory Model.Buffer Model.UBig Model.IBig Model.Div
  Spec.Val Spec.Num Proofs.Basics Proofs.AddProofs Proofs.DivProofs.
From Coq Require Import Lia.

Section BufferProofs.
Context {A : Arch} {AOK : ArchOk A}.

Lemma MAX_LEN_facts : 1022 <= MAX_LEN /\ wbits * MAX_LEN < 2 ^ ubits /\ MAX_LEN mod 2 = 0.
Proof.
  unfold MAX_LEN, NTT_MAX_ORDER, USIZE_MAX.
  destruct wbits_cases as [-> | [-> | ->]]; destruct ubits_cases as [-> | [-> | ->]];
    vm_compute; (split; [intros; discriminate|]; split; reflexivity).
Qed.
Lemma MAX_LEN_ge : 1022 <= MAX_LEN. Proof. apply MAX_LEN_facts. Qed.
Lemma MAX_LEN_usize : 16 * MAX_LEN < 2 ^ ubits.
Proof. pose proof MAX_LEN_facts as (H1 & H2 & _). pose proof wbits_ge. nia. Qed.
Lemma MAX_BIT_LEN_usize : wbits * MAX_LEN < 2 ^ ubits.
Proof. apply MAX_LEN_facts. Qed.

Lemma usize_chk_ok z : 0 <= z <= 16 * MAX_LEN -> usize_chk z = Ok z.
Proof.
  intros H. unfold usize_chk, checked. pose proof MAX_LEN_usize.
  rewrite (proj2 (Z.leb_le _ _)), (proj2 (Z.ltb_lt _ _)) by lia. reflexivity.
Qed.

Lemma MAXV_pos : 0 < MAXV.
Proof. unfold MAXV. pose proof MAX_LEN_ge. pose proof wbits_ge. apply Z.pow_pos_nonneg; lia. Qed.

Lemma Bn_MAXV_le n : Z.of_nat n <= MAX_LEN <-> Bn n <= MAXV.
Proof.
  unfold MAXV. rewrite Bn_pow2. pose proof MAX_LEN_ge. pose proof wbits_ge. split; intros H1.
  - apply Z.pow_le_mono_r; [lia|]. apply Z.mul_le_mono_nonneg_l; lia.
  - apply Z.nlt_ge. intros H2. apply (Z.lt_irrefl (2 ^ (wbits * MAX_LEN))).
    eapply Z.lt_le_trans; [|apply H1]. apply Z.pow_lt_mono_r; [lia| |]; [|apply Z.mul_lt_mono_pos_l; lia].
    apply Z.mul_nonneg_nonneg; lia.
Qed.
Lemma Bn_MAXV_lt n : MAX_LEN < Z.of_nat n <-> MAXV < Bn n.
Proof. pose proof (Bn_MAXV_le n). lia. Qed.
Lemma MAXV_lt_Bn n : MAX_LEN <= Z.of_nat n <-> MAXV <= Bn n.
Proof.
  destruct n as [|n].
  - pose proof MAX_LEN_ge. rewrite Bn_0. pose proof (proj1 (Bn_MAXV_le 1)) as H1. rewrite Bn_1 in H1. pose proof B_ge. lia.
  - rewrite Bn_S. destruct (Z.eq_dec (Z.of_nat (S n)) MAX_LEN) as [E|E].
    + assert (MAXV = B * Bn n) by (rewrite <- Bn_S, Bn_pow2, E; reflexivity). lia.
    + pose proof (Bn_MAXV_le (S n)). rewrite Bn_S in *.
      assert (B * Bn n = MAXV -> False); [|lia].
      intros H1. apply E. rewrite <- Bn_S, Bn_pow2 in H1. unfold MAXV in H1.
      apply Z.pow_inj_r in H1; pose proof wbits_ge; pose proof MAX_LEN_ge; [nia|lia|nia|nia].
Qed.

Lemma B_MAXV : B * B < MAXV.
Proof.
  pose proof (Bn_MAXV_le 3) as H. pose proof MAX_LEN_ge. rewrite !Bn_S, Bn_0 in H.
  pose proof B_ge. assert (B * (B * (B * 1)) <= MAXV) by (apply H; lia). nia.
Qed.

(** What is true of every buffer in use. *)
Definition buffer_ok (b : Buffer) : Prop :=
  wf (words b) /\ blen b <= cap b.

Lemma blen_nonneg b : 0 <= blen b. Proof. unfold blen, len. lia. Qed.
Lemma len_nonneg ws : 0 <= len ws. Proof. unfold len. lia. Qed.
Lemma len_app a b : len (a ++ b) = len a + len b.
Proof. unfold len. rewrite app_length. lia. Qed.
Lemma MAX_CAPACITY_eq : MAX_CAPACITY = MAX_LEN + 4. Proof. reflexivity. Qed.

Lemma allocate_spec n : 0 <= n <= MAX_CAPACITY ->
  exists c, allocate n = Ok (mkBuffer [] c) /\ n <= c /\ c <= max_cap n.
Proof.
  intros H. unfold allocate, default_capacity. rewrite (proj2 (Z.ltb_ge _ _)) by lia.
  rewrite check_true by lia. cbn [bind]. eexists; split; [reflexivity|].
  rewrite MAX_CAPACITY_eq in *. pose proof MAX_LEN_ge. unfold max_cap. split; [|lia].
  etransitivity; [|apply vec_cap_ge; dlia]. dlia.
Qed.

Lemma allocate_too_large n : MAX_CAPACITY < n -> allocate n = Panic NumberTooLarge.
Proof. intros H. unfold allocate. rewrite (proj2 (Z.ltb_lt _ _)) by lia. reflexivity. Qed.

Lemma reallocate_spec b n : blen b <= n <= MAX_CAPACITY ->
  exists c, reallocate b n = Ok (mkBuffer (words b) c) /\ n <= c /\ c <= max_cap n.
Proof.
  intros H. pose proof (blen_nonneg b). unfold reallocate. rewrite check_true by lia.
  destruct (allocate_spec n ltac:(lia)) as (c & -> & Hc). cbn [bind].
  unfold buffer_clone_from. cbn [cap]. change (len (words b)) with (blen b). rewrite check_true by lia.
  exists c; split; [reflexivity|lia].
Qed.

Lemma ensure_capacity_spec b n : buffer_ok b -> n <= MAX_CAPACITY \/ n <= cap b ->
  exists c, ensure_capacity b n = Ok (mkBuffer (words b) c) /\ n <= c /\ blen b <= c /\ cap b <= c.
Proof.
  intros [Wb Hc] Hn. unfold ensure_capacity. destruct (Z.ltb_spec (cap b) n) as [C|C].
  - destruct (reallocate_spec b n ltac:(lia)) as (c & -> & H). exists c; split; [reflexivity|lia].
  - exists (cap b). destruct b as [ws c]; split; [reflexivity|]. cbn [cap words] in *. lia.
Qed.

Lemma push_spec ws c w : len ws < c -> push (mkBuffer ws c) w = Ok (mkBuffer (ws ++ [w]) c).
Proof. intros H. unfold push, blen. cbn [words cap]. rewrite check_true by lia. reflexivity. Qed.

Lemma push_may_reallocate_spec b w : buffer_ok b -> 0 <= w < B -> blen b <= MAX_LEN ->
  exists c, push_may_reallocate b w = Ok (mkBuffer (words b ++ [w]) c) /\
    buffer_ok (mkBuffer (words b ++ [w]) c) /\ cap b <= c.
Proof.
  intros Hb Hw Hl. unfold push_may_reallocate. pose proof (blen_nonneg b). pose proof MAX_LEN_ge.
  rewrite usize_chk_ok by lia. cbn [bind].
  destruct (ensure_capacity_spec b (blen b + 1)) as (c & -> & H1 & H2 & H3); auto.
  { rewrite MAX_CAPACITY_eq. lia. }
  cbn [bind]. rewrite push_spec by (change (len (words b)) with (blen b); lia).
  exists c. split; [reflexivity|]. split; [|auto]. split; cbn [words cap].
  - apply wf_app. split; [apply Hb|]. repeat constructor; unfold word_ok; lia.
  - unfold blen. cbn [words]. rewrite len_app. unfold blen in *. change (len [w]) with 1. lia.
Qed.

Lemma extend_spec ws : forall b c, len b + len ws <= c -> extend (mkBuffer b c) ws = Ok (mkBuffer (b ++ ws) c).
Proof.
  induction ws as [|w t IH]; intros b c H; cbn [extend].
  - rewrite app_nil_r. reflexivity.
  - pose proof (len_nonneg t). change (w :: t) with ([w] ++ t) in H. rewrite len_app in H. change (len [w]) with 1 in H.
    rewrite push_spec by lia. cbn [bind]. rewrite IH.
    + rewrite <- app_assoc. reflexivity.
    + rewrite len_app. change (len [w]) with 1. lia.
Qed.

(** * Leading zeros *)
Lemma drop_zeros_app ws : exists z, ws = repeat 0 z ++ drop_zeros ws /\
  (drop_zeros ws = [] \/ hd 0 (drop_zeros ws) <> 0).
Proof.
  induction ws as [|w t IH]; cbn [drop_zeros].
  - exists 0%nat. auto.
  - destruct (Z.eqb_spec w 0) as [->|N].
    + destruct IH as (z & E & H). exists (S z). cbn [repeat app]. rewrite <- E. auto.
    + exists 0%nat. cbn [repeat app hd]. auto.
Qed.

Lemma rev_repeat {T} (x : T) n : rev (repeat x n) = repeat x n.
Proof.
  induction n as [|n IH]; [reflexivity|]. cbn [repeat rev]. rewrite IH.
  clear IH. induction n as [|n IH]; [reflexivity|]. cbn [repeat app]. rewrite IH. reflexivity.
Qed.

Lemma pop_zeros_spec ws : exists z, ws = rev (drop_zeros (rev ws)) ++ repeat 0 z /\
  (rev (drop_zeros (rev ws)) = [] \/ last (rev (drop_zeros (rev ws))) 0 <> 0).
Proof.
  destruct (drop_zeros_app (rev ws)) as (z & E & H). exists z. split.
  - apply (f_equal (@rev Z)) in E. rewrite rev_involutive, rev_app_distr, rev_repeat in E. exact E.
  - destruct H as [H|H]; [left; rewrite H; reflexivity|right].
    destruct (drop_zeros (rev ws)) as [|x l]; [simpl in H; congruence|]. cbn [rev hd] in *.
    rewrite last_last. auto.
Qed.

Lemma val_app_zeros a z : val (a ++ repeat 0 z) = val a.
Proof. rewrite val_app, val_repeat0. lia. Qed.

Lemma last_split {T} (ws : list T) d : ws <> [] -> exists l, ws = l ++ [last ws d].
Proof. intros H. exists (removelast ws). apply app_removelast_last. auto. Qed.

(** The value of a number without a leading zero. *)
Lemma val_top ws : wf ws -> last ws 0 <> 0 -> Bn (length ws - 1) <= val ws.
Proof.
  intros W H. destruct ws as [|w t] using rev_ind; [simpl in H; lia|]. clear IHt.
  rewrite last_last in H. rewrite app_length. simpl length. replace (length t + 1 - 1)%nat with (length t) by lia.
  apply wf_app in W as [W1 W2]. apply wf_cons in W2 as [W2 _].
  rewrite val_app, val_single. pose proof (val_nonneg _ W1). pose proof (Bn_pos (length t)).
  mle (Bn (length t)) 1 w. lia.
Qed.

Lemma from_buffer_yields b : buffer_ok b -> yields (from_buffer b) (val (words b)).
Proof.
  intros [W Hc]. unfold from_buffer, pop_leading_zeros. cbn [words].
  destruct (pop_zeros_spec (words b)) as (z & E & H).
  set (ws := rev (drop_zeros (rev (words b)))) in *. clearbody ws.
  unfold blen in Hc. rewrite E in W, Hc |- *. rewrite val_app_zeros. rewrite len_app in Hc.
  apply wf_app in W as [W _]. pose proof (len_nonneg (repeat 0 z)). pose proof B_MAXV. pose proof B_ge. clear E.
  pose proof MAX_LEN_ge.
  assert (forall w, ws = [w] -> yields (Ok (from_word w)) (val ws)) as HW1.
  { intros w ->. apply wf_cons in W as [W _]. rewrite val_single. split; [|nia]. intros _. exists (Small w). auto. }
  destruct ws as [|w [|w2 t]]; [|apply HW1; auto|]; clear HW1.
  { split; [|cbn [val]; lia]. intros _. exists (Small 0). cbn. repeat split; lia. }
  set (ws := w :: w2 :: t) in *. unfold blen. cbn [words].
  destruct H as [H|H]; [discriminate|].
  pose proof (val_bound _ W) as BW. pose proof (val_top _ W H) as TW.
  assert (length ws = S (length ws - 1)) as Els by (unfold ws; simpl; lia).
  destruct (Z.ltb_spec MAX_LEN (len ws)) as [C|C].
  { split; [|auto]. intros C2. exfalso.
    assert (MAX_LEN <= Z.of_nat (length ws - 1)) as C3 by (unfold len in C; lia).
    apply MAXV_lt_Bn in C3. lia. }
  unfold len in C. apply Bn_MAXV_le in C as C2.
  split; [|lia]. intros _. unfold shrink, max_compact_capacity, blen. cbn [words cap].
  rewrite check_true by (rewrite MAX_CAPACITY_eq; unfold len; lia). cbn [bind].
  assert (2 <= length ws)%nat as L2 by (unfold ws; simpl; lia).
  assert (2 <= len ws) as L2' by (unfold len; lia).
  destruct (Z.ltb_spec (Z.min (len ws + len ws / 4 + 4) MAX_CAPACITY) (cap b)) as [C4|C4].
  - destruct (reallocate_spec (mkBuffer ws (cap b)) (len ws)) as (c & -> & Hcc).
    { unfold blen. cbn [words]. rewrite MAX_CAPACITY_eq. unfold len. lia. }
    cbn [bind words]. eexists; split; [reflexivity|]. cbn [ubig_ok uval words cap].
    repeat split; auto; lia.
  - cbn [bind]. eexists; split; [reflexivity|]. cbn [ubig_ok uval words cap].
    rewrite MAX_CAPACITY_eq in C4. unfold max_cap. repeat split; auto; lia.
Qed.

Lemma yields_eq r z z' : yields r z -> z = z' -> yields r z'.
Proof. intros H <-. exact H. Qed.

Lemma yields_word w : 0 <= w < B -> yields (Ok (Small w)) w.
Proof.
  intros H. pose proof B_MAXV. pose proof B_ge. split; [|nia]. intros _. exists (Small w). auto.
Qed.

(** * UBig values *)
Lemma Large_buffer_ok b : ubig_ok (Large b) -> buffer_ok b.
Proof.
  intros (H1 & H2 & H3 & H4 & H5). split; auto. unfold blen. lia.
Qed.

Lemma ubig_ok_val u : ubig_ok u -> 0 <= uval u < MAXV.
Proof.
  destruct u as [w|b]; cbn [ubig_ok uval]; intros H.
  - pose proof B_MAXV. pose proof B_ge. nia.
  - destruct H as (W & _ & _ & L & _). unfold len in L. apply Bn_MAXV_le in L.
    pose proof (val_bound _ W). lia.
Qed.
Lemma uval_nonneg u : ubig_ok u -> 0 <= uval u.
Proof. intros H. apply ubig_ok_val in H. lia. Qed.

Lemma Large_ge b : ubig_ok (Large b) -> B <= val (words b).
Proof.
  intros (W & L & T & _). pose proof (val_top _ W T) as H.
  pose proof (Bn_le 1 (length (words b) - 1) ltac:(lia)) as H2. rewrite Bn_1 in H2. lia.
Qed.

Lemma buffer_clone_spec b : ubig_ok (Large b) ->
  exists c, buffer_clone b = Ok (mkBuffer (words b) c) /\ ubig_ok (Large (mkBuffer (words b) c)).
Proof.
  intros H. pose proof H as (W & L & T & M & C). unfold buffer_clone.
  destruct (allocate_spec (blen b)) as (c & -> & Hc).
  { unfold blen, len in *. rewrite MAX_CAPACITY_eq. lia. }
  cbn [bind]. unfold buffer_clone_from. cbn [cap]. change (blen b) with (len (words b)) in *.
  rewrite check_true by lia. exists c. split; [reflexivity|]. cbn [ubig_ok words cap].
  repeat split; auto; lia.
Qed.

Lemma ubig_clone_spec u : ubig_ok u -> exists u', ubig_clone u = Ok u' /\ ubig_ok u' /\ uval u' = uval u.
Proof.
  intros H. destruct u as [w|b]; cbn [ubig_clone].
  - exists (Small w). auto.
  - destruct (buffer_clone_spec b H) as (c & -> & H2). cbn [bind]. eexists; split; [reflexivity|]. auto.
Qed.

(** The representation is a function of the number, up to capacity. *)
Lemma ubig_repr_inj a b : ubig_ok a -> ubig_ok b -> uval a = uval b ->
  match a, b with
  | Small x, Small y => x = y
  | Large x, Large y => words x = words y
  | _, _ => False
  end.
Proof.
  intros Ha Hb E. destruct a as [x|x]; destruct b as [y|y]; cbn [uval] in E; auto.
  - apply Large_ge in Hb. cbn in Ha. lia.
  - apply Large_ge in Ha. cbn in Hb. lia.
  - destruct Ha as (W1 & L1 & T1 & _). destruct Hb as (W2 & L2 & T2 & _).
    apply val_inj; auto.
    pose proof (val_top _ W1 T1). pose proof (val_top _ W2 T2).
    pose proof (val_bound _ W1). pose proof (val_bound _ W2).
    assert (length (words x) - 1 < length (words y))%nat by (apply Bn_inj_lt; lia).
    assert (length (words y) - 1 < length (words x))%nat by (apply Bn_inj_lt; lia). lia.
Qed.

Lemma words_eqb_spec a b : words_eqb a b = true <-> a = b.
Proof.
  revert b; induction a as [|x a IH]; intros [|y b]; cbn [words_eqb]; try (split; congruence).
  rewrite andb_true_iff, Z.eqb_eq, IH. split; [intros [-> ->]|intros E; inversion E]; auto.
Qed.

Lemma ubig_eqb_spec a b : ubig_ok a -> ubig_ok b -> (ubig_eqb a b = true <-> uval a = uval b).
Proof.
  intros Ha Hb. split.
  - destruct a, b; cbn [ubig_eqb uval]; try discriminate; [lia|]. rewrite words_eqb_spec. congruence.
  - intros E. pose proof (ubig_repr_inj a b Ha Hb E) as R.
    destruct a, b; cbn [ubig_eqb]; try contradiction; [lia|]. apply words_eqb_spec. auto.
Qed.

Lemma ubig_is_zero u : ubig_ok u -> (ubig_eqb u (from_word 0) = true <-> uval u = 0).
Proof.
  intros H. unfold from_word. rewrite ubig_eqb_spec; auto; [reflexivity|]. cbn. pose proof B_ge. lia.
Qed.

Lemma ubig_hash_spec a b : ubig_ok a -> ubig_ok b -> (ubig_hash a = ubig_hash b <-> uval a = uval b).
Proof.
  intros Ha Hb. split.
  - destruct a, b; cbn [ubig_hash uval]; intros E; try discriminate; congruence.
  - intros E. pose proof (ubig_repr_inj a b Ha Hb E) as R.
    destruct a, b; cbn [ubig_hash]; try contradiction; [congruence|]. unfold blen. rewrite R. reflexivity.
Qed.

(** Comparing numbers of different lengths. *)
Lemma val_lt_len a b : wf a -> wf b -> last b 0 <> 0 -> (length a < length b)%nat -> val a < val b.
Proof.
  intros Wa Wb T L. pose proof (val_top _ Wb T). pose proof (val_bound _ Wa).
  pose proof (Bn_le (length a) (length b - 1) ltac:(lia)). lia.
Qed.

Lemma ubig_cmp_spec a b : ubig_ok a -> ubig_ok b -> ubig_cmp a b = Ok (uval a ?= uval b).
Proof.
  intros Ha Hb. destruct a as [x|x]; destruct b as [y|y]; cbn [ubig_cmp uval].
  - reflexivity.
  - apply Large_ge in Hb. cbn in Ha. f_equal. symmetry. apply Z.compare_lt_iff. lia.
  - apply Large_ge in Ha. cbn in Hb. f_equal. symmetry. apply Z.compare_gt_iff. lia.
  - destruct Ha as (W1 & L1 & T1 & _). destruct Hb as (W2 & L2 & T2 & _). unfold blen, len.
    destruct (Z.compare_spec (Z.of_nat (length (words x))) (Z.of_nat (length (words y)))) as [E|E|E].
    + apply cmp_same_len_spec; auto. lia.
    + f_equal. symmetry. apply Z.compare_lt_iff. apply val_lt_len; auto; lia.
    + f_equal. symmetry. apply Z.compare_gt_iff. apply val_lt_len; auto; lia.
Qed.

(** * IBig values *)
Lemma from_sign_magnitude_spec s u : ubig_ok u ->
  ibig_ok (from_sign_magnitude s u) /\ ival (from_sign_magnitude s u) = sign_val s * uval u.
Proof.
  intros H. unfold from_sign_magnitude, ibig_ok, ival. cbn [isign imag].
  pose proof (ubig_is_zero u H) as Z0. destruct (ubig_eqb u (from_word 0)).
  - assert (uval u = 0) as -> by (apply Z0; auto). split; [auto|]. lia.
  - split; [|reflexivity]. split; [auto|]. intros E. apply Z0 in E. discriminate.
Qed.

Lemma sign_val_cases s : sign_val s = 1 \/ sign_val s = -1.
Proof. destruct s; auto. Qed.

Lemma ibig_abs_val x : ibig_ok x -> Z.abs (ival x) = uval (imag x).
Proof. intros [H _]. apply uval_nonneg in H. unfold ival. destruct (sign_val_cases (isign x)) as [-> | ->]; lia. Qed.

Lemma ibig_ok_val x : ibig_ok x -> Z.abs (ival x) < MAXV.
Proof. intros H. rewrite ibig_abs_val by auto. apply ubig_ok_val. apply H. Qed.

Lemma ibig_neg_spec x : ibig_ok x -> ibig_ok (ibig_neg x) /\ ival (ibig_neg x) = - ival x.
Proof.
  intros [H _]. unfold ibig_neg. destruct (from_sign_magnitude_spec (sign_neg (isign x)) (imag x) H) as [H1 ->].
  split; [auto|]. unfold ival. destruct (isign x); cbn [sign_neg sign_val]; lia.
Qed.

Lemma ibig_from_ubig_spec u : ubig_ok u -> ibig_ok (ibig_from_ubig u) /\ ival (ibig_from_ubig u) = uval u.
Proof.
  intros H. unfold ibig_from_ubig. destruct (from_sign_magnitude_spec Positive u H) as [H1 ->].
  split; [auto|]. cbn [sign_val]. lia.
Qed.

Lemma ibig_clone_spec x : ibig_ok x -> exists y, ibig_clone x = Ok y /\ ibig_ok y /\ ival y = ival x.
Proof.
  intros [H1 H2]. unfold ibig_clone. destruct (ubig_clone_spec _ H1) as (m & -> & Hm & E). cbn [bind].
  eexists; split; [reflexivity|]. unfold ibig_ok, ival. cbn [isign imag]. rewrite E. auto.
Qed.

Lemma ibig_repr_inj x y : ibig_ok x -> ibig_ok y -> ival x = ival y ->
  isign x = isign y /\ uval (imag x) = uval (imag y).
Proof.
  intros Hx Hy E. assert (uval (imag x) = uval (imag y)) as EA.
  { rewrite <- !ibig_abs_val by auto. congruence. }
  split; [|auto]. destruct Hx as [Ox Zx], Hy as [Oy Zy]. unfold ival in E.
  apply uval_nonneg in Ox, Oy.
  destruct (Z.eq_dec (uval (imag x)) 0) as [E0|E0].
  - rewrite Zx, Zy by congruence. reflexivity.
  - destruct (isign x), (isign y); cbn [sign_val] in E; auto; lia.
Qed.

Lemma ibig_eqb_spec x y : ibig_ok x -> ibig_ok y -> (ibig_eqb x y = true <-> ival x = ival y).
Proof.
  intros Hx Hy. unfold ibig_eqb. rewrite andb_true_iff, ubig_eqb_spec by (apply Hx || apply Hy). split.
  - intros [E1 E2]. unfold ival. rewrite E2. destruct (isign x), (isign y); try discriminate; auto.
  - intros E. destruct (ibig_repr_inj x y Hx Hy E) as [-> ->]. destruct (isign y); auto.
Qed.

Lemma ibig_hash_spec x y : ibig_ok x -> ibig_ok y -> (ibig_hash x = ibig_hash y <-> ival x = ival y).
Proof.
  intros Hx Hy. unfold ibig_hash. split.
  - intros E. injection E as E1 E2. apply ubig_hash_spec in E2; [|apply Hx|apply Hy].
    unfold ival. rewrite E2. destruct (isign x), (isign y); try discriminate; auto.
  - intros E. destruct (ibig_repr_inj x y Hx Hy E) as [-> E2].
    apply ubig_hash_spec in E2; [|apply Hx|apply Hy]. congruence.
Qed.

Lemma ibig_cmp_spec x y : ibig_ok x -> ibig_ok y -> ibig_cmp x y = Ok (ival x ?= ival y).
Proof.
  intros Hx Hy. pose proof Hx as [Ox Zx]. pose proof Hy as [Oy Zy]. unfold ibig_cmp, ival.
  pose proof (uval_nonneg _ Ox). pose proof (uval_nonneg _ Oy).
  destruct (isign x), (isign y); cbn [sign_val].
  - rewrite ubig_cmp_spec, !Z.mul_1_l by auto. reflexivity.
  - f_equal. symmetry. apply Z.compare_gt_iff. assert (uval (imag y) <> 0) by (intros E; specialize (Zy E); discriminate). lia.
  - f_equal. symmetry. apply Z.compare_lt_iff. assert (uval (imag x) <> 0) by (intros E; specialize (Zx E); discriminate). lia.
  - rewrite ubig_cmp_spec by auto. f_equal.
    destruct (Z.compare_spec (uval (imag y)) (uval (imag x))); symmetry;
      [apply Z.compare_eq_iff|apply Z.compare_lt_iff|apply Z.compare_gt_iff]; lia.
Qed.

End BufferProofs.
