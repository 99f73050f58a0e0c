(** Addition and subtraction of UBig and IBig. *)
From Verif Require Import Model.Base Model.Words Model.Add Model.Memory Model.Buffer Model.UBig Model.IBig
  Model.AddOps Spec.Val Spec.Num Proofs.Basics Proofs.AddProofs Proofs.DivProofs Proofs.BufferProofs.
From Coq Require Import Lia.

Section AddOpsProofs.
Context {A : Arch} {AOK : ArchOk A}.

(** A buffer holding a large number, not necessarily compact. *)
Definition big (b : Buffer) : Prop := buffer_ok b /\ (2 <= length (words b))%nat /\ blen b <= MAX_LEN.

Lemma Large_big b : ubig_ok (Large b) -> big b.
Proof. intros H. split; [apply Large_buffer_ok; auto|]. destruct H as (_ & H1 & _ & H2 & _). auto. Qed.

Lemma buffer_ok_same ws ws' c : buffer_ok (mkBuffer ws c) -> wf ws' -> length ws' = length ws ->
  buffer_ok (mkBuffer ws' c).
Proof. intros [_ H] W L. split; [auto|]. unfold blen, len in *. cbn [words cap] in *. rewrite L. auto. Qed.

Lemma on_words_ok {R} b (f : list Z -> res (list Z * R)) ws r : f (words b) = Ok (ws, r) ->
  on_words b f = Ok (mkBuffer ws (cap b), r).
Proof. intros E. unfold on_words. rewrite E. reflexivity. Qed.

(** Appending the carry word. *)
Lemma push_carry_yields b (o : bool) : buffer_ok b -> blen b <= MAX_LEN ->
  yields (b <- (if o then push_may_reallocate b 1 else Ok b) ;; from_buffer b)
    (val (words b) + Bn (length (words b)) * Z.b2z o).
Proof.
  intros Hb L. pose proof B_ge. destruct o; cbn [bind Z.b2z].
  - destruct (push_may_reallocate_spec b 1) as (c & -> & Hc & _); auto; [lia|]. cbn [bind].
    eapply yields_eq; [apply from_buffer_yields; auto|]. cbn [words]. rewrite val_app, val_single. lia.
  - eapply yields_eq; [apply from_buffer_yields; auto|]. lia.
Qed.

Lemma add_word_yields a b : 0 <= a < B -> 0 <= b < B -> yields (add_word a b) (a + b).
Proof.
  intros Ha Hb. unfold add_word. pose proof (overflowing_add_spec a b Ha Hb) as S.
  destruct (overflowing_add a b) as [r o]. destruct S as [E R]. destruct o; cbn [Z.b2z] in E.
  - destruct (allocate_spec 2) as (c & -> & Hc); [rewrite MAX_CAPACITY_eq; pose proof MAX_LEN_ge; lia|].
    pose proof B_ge. cbn [bind]. rewrite push_spec by (unfold len; simpl length; lia). cbn [bind app].
    rewrite push_spec by (unfold len; simpl length; lia). cbn [bind app].
    eapply yields_eq; [apply from_buffer_yields|cbn [words val]; lia].
    split; [|unfold blen, len; cbn [words cap length]; lia]. cbn [words]. repeat constructor; lia.
  - eapply yields_eq; [apply yields_word; auto|]. lia.
Qed.

Lemma add_large_word_yields b rhs : big b -> 0 <= rhs < B -> yields (add_large_word b rhs) (val (words b) + rhs).
Proof.
  intros (Hb & L2 & LM) Hr. unfold add_large_word. rewrite check_true by (apply Nat.leb_le; auto).
  destruct (add_word_spec (words b) rhs) as (ws & o & E & (L & W & V)); [apply Hb|lia|auto|].
  rewrite (on_words_ok _ _ _ _ E). cbn [bind].
  eapply yields_eq; [apply push_carry_yields|cbn [words]; rewrite L; lia].
  - destruct b as [bw bc]; cbn [words cap] in *. eapply buffer_ok_same; eauto.
  - unfold blen, len in *. cbn [words]. rewrite L. auto.
Qed.

Lemma add_large_yields b rhs : big b -> wf rhs -> len rhs <= MAX_LEN -> 
  yields (add_large b rhs) (val (words b) + val rhs).
Proof.
  intros (Hb & L2 & LM) Wr LR. unfold add_large. destruct b as [bw bc]. cbn [words] in *.
  unfold blen in LM. cbn [words] in LM. pose proof Hb as [Wb Hc]. unfold blen in Hc; cbn [words cap] in *.
  remember (Nat.min (length bw) (length rhs)) as n eqn:En.
  destruct (list_split n bw ltac:(lia)) as (lo & hi & -> & Llo & Lhi & _ & _).
  destruct (list_split n rhs ltac:(lia)) as (rlo & rhi & -> & Lrlo & Lrhi & EF & ES).
  apply wf_app in Wb as [Wlo Whi]. apply wf_app in Wr as [Wrlo Wrhi].
  rewrite slice_to_Ok by (rewrite app_length; lia). cbn [bind]. rewrite EF.
  unfold on_buffer.
  destruct (add_same_len_spec lo rlo) as (lo' & o & E & (L' & W' & V')); auto; [lia|].
  rewrite (on_words_ok _ _ (lo' ++ hi) o).
  2:{ cbn [words]. change (lo ++ hi) with ([] ++ lo ++ hi). rewrite on_window_app by (simpl; lia).
      rewrite E. reflexivity. }
  cbn [bind words cap].
  assert (exists T c, (if (n <? length (rlo ++ rhi))%nat then
        ' b0 <- ensure_capacity (mkBuffer (lo' ++ hi) bc) (len (rlo ++ rhi)) ;;
        ' rhs_hi <- slice_from n (rlo ++ rhi) ;; extend b0 rhs_hi
      else Ok (mkBuffer (lo' ++ hi) bc)) = Ok (mkBuffer (lo' ++ T) c) /\
      buffer_ok (mkBuffer (lo' ++ T) c) /\ wf T /\ len (lo' ++ T) <= MAX_LEN /\
      val T = val hi + val rhi) as (T & c & -> & Hb2 & WT & LT & VT).
  { rewrite !app_length in *. rewrite !len_app in *. destruct (Nat.ltb_spec n (length rlo + length rhi)) as [C|C].
    - assert (hi = []) as -> by (apply length_zero_iff_nil; lia). rewrite app_nil_r in *.
      destruct (ensure_capacity_spec (mkBuffer lo' bc) (len rlo + len rhi)) as (c & -> & H1 & H2 & H3).
      + split; [auto|]. unfold blen, len in *. cbn [words cap] in *. rewrite L'. simpl in *. lia.
      + rewrite MAX_CAPACITY_eq. lia.
      + cbn [bind words]. rewrite slice_from_Ok by (rewrite app_length; lia). cbn [bind]. rewrite ES.
        rewrite extend_spec by (unfold len in *; lia). exists rhi, c. split; [reflexivity|].
        split; [split; [apply wf_app; auto|]|].
        * unfold blen. cbn [words cap]. rewrite len_app. unfold len in *. lia.
        * split; [auto|]. split; [|cbn [val]; lia]. rewrite len_app. unfold len in *. lia.
    - assert (rhi = []) as -> by (apply length_zero_iff_nil; lia).
      exists hi, bc. split; [reflexivity|]. split.
      + eapply buffer_ok_same; [exact Hb|apply wf_app; auto|rewrite !app_length; lia].
      + split; [auto|]. split; [|cbn [val]; lia]. rewrite len_app. unfold len in *. lia. }
  cbn [bind]. rewrite !val_app. replace (length rlo) with (length lo) by lia.
  assert (val lo + Bn (length lo) * val hi + (val rlo + Bn (length lo) * val rhi) = 
     val (lo' ++ T) + Bn (length lo) * Z.b2z o) as EV.
  { rewrite val_app, L', VT. lia. }
  rewrite EV. clear EV. rewrite val_app, L'.
  destruct o; cbn [Z.b2z].
  - unfold on_buffer. pose proof (add_one_spec T WT) as S. destruct (add_one_in_place T) as [T' o2] eqn:ET.
    destruct S as (LT' & WT' & VT').
    rewrite (on_words_ok _ _ (lo' ++ T') o2).
    2:{ cbn [words]. rewrite on_window_end by (rewrite ?app_length; lia). rewrite ET. reflexivity. }
    cbn [bind]. eapply yields_eq; [apply push_carry_yields|].
    + eapply buffer_ok_same; [exact Hb2|apply wf_app; auto|rewrite !app_length; lia].
    + unfold blen. cbn [words]. rewrite len_app in *. unfold len in *. rewrite LT'. lia.
    + cbn [words]. rewrite app_length, val_app, LT', L', Bn_add.
      assert (Bn (length lo) * (val T' + Bn (length T) * Z.b2z o2) = Bn (length lo) * (val T + 1)) by (rewrite VT'; reflexivity). lia.
  - cbn [bind]. eapply yields_eq; [apply from_buffer_yields; auto|]. cbn [words]. rewrite val_app, L'. lia.
Qed.

Lemma Large_clone b : ubig_ok (Large b) -> exists b', buffer_clone b = Ok b' /\ big b' /\ words b' = words b.
Proof.
  intros H. destruct (buffer_clone_spec b H) as (c & -> & H2). eexists; split; [reflexivity|].
  split; [apply Large_big; auto|reflexivity].
Qed.

Ltac clone H := let b' := fresh "b'" in let Hb := fresh "Hb" in let E := fresh "E" in
  destruct (Large_clone _ H) as (b' & -> & Hb & E); cbn [bind]; try rewrite <- E.

Lemma Large_len b : ubig_ok (Large b) -> wf (words b) /\ len (words b) <= MAX_LEN.
Proof. intros (H1 & _ & _ & H2 & _). auto. Qed.

Ltac usolve := cbn [uval ubig_ok] in *; auto using Large_big; try (apply Large_len; auto; fail).

Lemma ubig_add_vv_yields a b : ubig_ok a -> ubig_ok b -> yields (ubig_add_vv a b) (uval a + uval b).
Proof.
  intros Ha Hb. destruct a as [x|x], b as [y|y]; cbn [ubig_add_vv uval].
  - apply add_word_yields; auto.
  - rewrite Z.add_comm. apply add_large_word_yields; usolve.
  - apply add_large_word_yields; usolve.
  - destruct (Nat.leb_spec (length (words y)) (length (words x))).
    + apply add_large_yields; usolve.
    + rewrite Z.add_comm. apply add_large_yields; usolve.
Qed.

Lemma ubig_add_vr_yields a b : ubig_ok a -> ubig_ok b -> yields (ubig_add_vr a b) (uval a + uval b).
Proof.
  intros Ha Hb. destruct a as [x|x], b as [y|y]; cbn [ubig_add_vr uval].
  - apply add_word_yields; auto.
  - clone Hb. rewrite Z.add_comm. apply add_large_word_yields; usolve.
  - apply add_large_word_yields; usolve.
  - apply add_large_yields; usolve.
Qed.

Lemma ubig_add_rv_yields a b : ubig_ok a -> ubig_ok b -> yields (ubig_add_rv a b) (uval a + uval b).
Proof. intros Ha Hb. rewrite Z.add_comm. apply ubig_add_vr_yields; auto. Qed.

Lemma ubig_add_rr_yields a b : ubig_ok a -> ubig_ok b -> yields (ubig_add_rr a b) (uval a + uval b).
Proof.
  intros Ha Hb. destruct a as [x|x], b as [y|y]; cbn [ubig_add_rr uval].
  - apply add_word_yields; auto.
  - clone Hb. rewrite Z.add_comm. apply add_large_word_yields; usolve.
  - clone Ha. apply add_large_word_yields; usolve.
  - destruct (Nat.leb_spec (length (words y)) (length (words x))).
    + clone Ha. apply add_large_yields; usolve.
    + clone Hb. rewrite Z.add_comm. apply add_large_yields; usolve.
Qed.

(** * Subtraction *)
Lemma yields_nat_nonneg r z : 0 <= z -> yields r z -> yields_nat r z.
Proof. intros H Y. split; [auto|lia]. Qed.
Lemma yields_nat_neg z : z < 0 -> yields_nat (Panic NegativeUBig) z.
Proof. intros H. split; [lia|auto]. Qed.

Lemma sub_word_yields a b : 0 <= a < B -> 0 <= b < B -> yields_nat (sub_word a b) (a - b).
Proof.
  intros Ha Hb. unfold sub_word. destruct (Z.leb_spec b a).
  - apply yields_nat_nonneg; [lia|]. apply yields_word. lia.
  - apply yields_nat_neg. lia.
Qed.

Lemma sub_large_word_yields b rhs : big b -> B <= val (words b) -> 0 <= rhs < B ->
  yields (sub_large_word b rhs) (val (words b) - rhs).
Proof.
  intros (Hb & L2 & LM) G Hr. unfold sub_large_word.
  destruct (sub_word_spec (words b) rhs) as (ws & o & E & (L & W & V)); [apply Hb|lia|auto|].
  rewrite (on_words_ok _ _ _ _ E). cbn [bind].
  pose proof (val_bound _ W) as BW. rewrite L in BW.
  assert (o = false) as -> by (destruct o; [cbn [Z.b2z] in V; lia|reflexivity]). cbn [negb Z.b2z] in *.
  rewrite check_true by reflexivity.
  eapply yields_eq; [apply from_buffer_yields|cbn [words]; lia].
  destruct b as [bw bc]; cbn [words cap] in *. eapply buffer_ok_same; [apply Hb|auto|auto].
Qed.

Definition top_nz (ws : list Z) : Prop := last ws 0 <> 0.

Lemma sub_large_yields b rhs : big b -> wf rhs -> top_nz rhs ->
  yields_nat (sub_large b rhs) (val (words b) - val rhs).
Proof.
  intros (Hb & L2 & LM) Wr T. unfold sub_large. destruct (Nat.ltb_spec (length (words b)) (length rhs)) as [C|C].
  - apply yields_nat_neg. pose proof (val_lt_len (words b) rhs (proj1 Hb) Wr T C). lia.
  - destruct (sub_in_place_spec (words b) rhs) as (ws & o & E & (L & W & V)); auto; [apply Hb|].
    rewrite (on_words_ok _ _ _ _ E). cbn [bind]. pose proof (val_bound _ W) as BW. rewrite L in BW.
    destruct o; cbn [Z.b2z] in V.
    + apply yields_nat_neg. lia.
    + apply yields_nat_nonneg; [lia|]. eapply yields_eq; [apply from_buffer_yields|cbn [words]; lia].
      destruct b as [bw bc]; cbn [words cap] in *. eapply buffer_ok_same; [apply Hb|auto|auto].
Qed.

Lemma sub_large_ref_val_yields lhs b : wf lhs -> len lhs <= MAX_LEN -> big b -> top_nz (words b) ->
  yields_nat (sub_large_ref_val lhs b) (val lhs - val (words b)).
Proof.
  intros Wl LL (Hb & L2 & LM) T. unfold sub_large_ref_val.
  destruct (Nat.ltb_spec (length lhs) (length (words b))) as [C|C].
  - apply yields_nat_neg. pose proof (val_lt_len lhs (words b) Wl (proj1 Hb) T C). lia.
  - destruct b as [bw bc]. cbn [words] in *. pose proof Hb as [Wb Hc]. unfold blen in *. cbn [words cap] in *.
    destruct (list_split (length bw) lhs C) as (lo & hi & -> & Llo & Lhi & EF & ES).
    apply wf_app in Wl as [Wlo Whi].
    rewrite slice_to_Ok by lia. cbn [bind]. rewrite EF.
    destruct (sub_same_len_swap_spec lo bw) as (bw' & o & E & L' & W' & V'); auto.
    rewrite (on_words_ok _ _ _ _ E). cbn [bind cap].
    destruct (ensure_capacity_spec (mkBuffer bw' bc) (len (lo ++ hi))) as (c & -> & H1 & H2 & H3).
    { eapply buffer_ok_same; eauto. } { rewrite MAX_CAPACITY_eq. lia. }
    cbn [bind words]. rewrite slice_from_Ok by lia. cbn [bind]. rewrite ES.
    rewrite len_app in *. assert (len bw' = len lo) as EL by (unfold len; lia).
    rewrite extend_spec by lia. cbn [bind words].
    assert (buffer_ok (mkBuffer (bw' ++ hi) c)) as Hb2.
    { split; [apply wf_app; auto|]. unfold blen in *. cbn [words cap] in *. rewrite len_app. lia. }
    rewrite val_app, Llo.
    destruct o; cbn [Z.b2z] in V'.
    + unfold on_buffer. pose proof (sub_one_spec hi Whi) as S. destruct (sub_one_in_place hi) as [hi' o2] eqn:ET.
      destruct S as (LT' & WT' & VT').
      rewrite (on_words_ok _ _ (bw' ++ hi') o2).
      2:{ cbn [words]. rewrite on_window_end by (rewrite ?app_length; lia). rewrite ET. reflexivity. }
      cbn [bind]. pose proof (val_bound _ WT') as BT. rewrite LT' in BT.
      pose proof (val_bound _ W') as BW. rewrite L' in BW. pose proof (Bn_pos (length bw)) as PB.
      assert (Bn (length bw) * (val hi' + Bn (length hi) * - Z.b2z o2) = Bn (length bw) * (val hi + -1)) as EM by (rewrite VT'; reflexivity).
      destruct o2; cbn [Z.b2z] in *.
      * apply yields_nat_neg. mle (Bn (length bw)) (val hi' + 1) (Bn (length hi)). lia.
      * apply yields_nat_nonneg; [mnn (Bn (length bw)) (val hi'); lia|].
        eapply yields_eq; [apply from_buffer_yields|].
        { eapply buffer_ok_same; [exact Hb2|apply wf_app; auto|rewrite !app_length; lia]. }
        cbn [words]. rewrite val_app, L'. lia.
    + cbn [bind]. apply val_nonneg in W' as N1, Whi as N2. apply yields_nat_nonneg.
      { pose proof (Bn_pos (length bw)). mnn (Bn (length bw)) (val hi). lia. }
      eapply yields_eq; [apply from_buffer_yields; auto|]. cbn [words]. rewrite val_app, L'. lia.
Qed.

Lemma Large_top b : ubig_ok (Large b) -> top_nz (words b).
Proof. intros (_ & _ & H & _). exact H. Qed.
Lemma Large_wf b : ubig_ok (Large b) -> wf (words b).
Proof. intros (H & _). exact H. Qed.
Lemma Large_MAX b : ubig_ok (Large b) -> len (words b) <= MAX_LEN.
Proof. intros (_ & _ & _ & H & _). exact H. Qed.

Lemma small_sub_large x y : ubig_ok (Small x) -> ubig_ok (Large y) -> yields_nat (Panic NegativeUBig) (x - val (words y)).
Proof. intros Ha Hb. apply yields_nat_neg. apply Large_ge in Hb. cbn in Ha. lia. Qed.

Lemma large_sub_small x y : ubig_ok (Large x) -> ubig_ok (Small y) -> 0 <= val (words x) - y.
Proof. intros Ha Hb. apply Large_ge in Ha. cbn in Hb. lia. Qed.

Hint Resolve Large_top Large_wf Large_MAX Large_big Large_ge : large.

Lemma ubig_sub_vv_yields a b : ubig_ok a -> ubig_ok b -> yields_nat (ubig_sub_vv a b) (uval a - uval b).
Proof.
  intros Ha Hb. destruct a as [x|x], b as [y|y]; cbn [ubig_sub_vv uval].
  - apply sub_word_yields; auto.
  - apply small_sub_large; auto.
  - apply yields_nat_nonneg; [apply large_sub_small; auto|]. apply sub_large_word_yields; auto with large.
  - apply sub_large_yields; auto with large.
Qed.

Lemma ubig_sub_vr_yields a b : ubig_ok a -> ubig_ok b -> yields_nat (ubig_sub_vr a b) (uval a - uval b).
Proof. exact (ubig_sub_vv_yields a b). Qed.

Lemma ubig_sub_rv_yields a b : ubig_ok a -> ubig_ok b -> yields_nat (ubig_sub_rv a b) (uval a - uval b).
Proof.
  intros Ha Hb. destruct a as [x|x], b as [y|y]; cbn [ubig_sub_rv uval].
  - apply sub_word_yields; auto.
  - apply small_sub_large; auto.
  - apply yields_nat_nonneg; [apply large_sub_small; auto|]. clone Ha. apply sub_large_word_yields; auto.
    rewrite E. auto with large.
  - apply sub_large_ref_val_yields; auto with large.
Qed.

Lemma ubig_sub_rr_yields a b : ubig_ok a -> ubig_ok b -> yields_nat (ubig_sub_rr a b) (uval a - uval b).
Proof.
  intros Ha Hb. destruct a as [x|x], b as [y|y]; cbn [ubig_sub_rr uval].
  - apply sub_word_yields; auto.
  - apply small_sub_large; auto.
  - apply yields_nat_nonneg; [apply large_sub_small; auto|]. clone Ha. apply sub_large_word_yields; auto.
    rewrite E. auto with large.
  - clone Ha. apply sub_large_yields; auto with large.
Qed.

(** * Signed numbers *)
Lemma iyields_eq r z z' : iyields r z -> z = z' -> iyields r z'.
Proof. intros H <-. exact H. Qed.

Lemma iyields_ok x : ibig_ok x -> iyields (Ok x) (ival x).
Proof. intros H. pose proof (ibig_ok_val x H). split; [|lia]. intros _. exists x. auto. Qed.

Lemma iyields_of r z : 0 <= z -> yields r z -> iyields (ibig_of r) z.
Proof.
  intros Hz [Y1 Y2]. split; rewrite Z.abs_eq by auto; intros H.
  - destruct (Y1 H) as (u & -> & Hu & E). unfold ibig_of. cbn [bind]. destruct (ibig_from_ubig_spec u Hu) as [H1 H2].
    eexists; split; [reflexivity|]. split; [auto|congruence].
  - rewrite (Y2 H). reflexivity.
Qed.

Lemma iyields_sign r s z : 0 <= z -> yields r z ->
  iyields (u <- r ;; Ok (from_sign_magnitude s u)) (sign_val s * z).
Proof.
  intros Hz [Y1 Y2]. assert (Z.abs (sign_val s * z) = z) as EA by (destruct (sign_val_cases s) as [-> | ->]; lia).
  split; rewrite EA; intros H.
  - destruct (Y1 H) as (u & -> & Hu & E). cbn [bind]. destruct (from_sign_magnitude_spec s u Hu) as [H1 H2].
    eexists; split; [reflexivity|]. split; [auto|congruence].
  - rewrite (Y2 H). reflexivity.
Qed.

Lemma iyields_neg r z : iyields r z -> iyields (neg_res r) (- z).
Proof.
  intros [Y1 Y2]. split; rewrite Z.abs_opp; intros H.
  - destruct (Y1 H) as (x & -> & Hx & E). unfold neg_res. cbn [bind]. destruct (ibig_neg_spec x Hx) as [H1 H2].
    eexists; split; [reflexivity|]. split; [auto|congruence].
  - rewrite (Y2 H). reflexivity.
Qed.

Lemma isub_word_word_yields x y : 0 <= x < B -> 0 <= y < B -> iyields (Ok (isub_word_word x y)) (x - y).
Proof.
  intros Hx Hy. unfold isub_word_word. pose proof (overflowing_sub_spec x y Hx Hy) as S.
  destruct (overflowing_sub x y) as [v o]. destruct S as [E R].
  destruct o; cbn [negb Z.b2z] in *.
  - assert (v <> 0) by lia. rewrite (mod_eq (B - v) (- v) B (-1)) by lia.
    destruct (ibig_from_ubig_spec (from_word (B - v))) as [H1 H2]; [cbn; lia|].
    destruct (ibig_neg_spec _ H1) as [H3 H4].
    eapply iyields_eq; [apply iyields_ok; auto|]. rewrite H4, H2. cbn [uval from_word]. lia.
  - destruct (ibig_from_ubig_spec (from_word v)) as [H1 H2]; [cbn; lia|].
    eapply iyields_eq; [apply iyields_ok; auto|]. rewrite H2. cbn [uval from_word]. lia.
Qed.

Lemma isub_large_word_yields b rhs : big b -> B <= val (words b) -> 0 <= rhs < B ->
  iyields (isub_large_word b rhs) (val (words b) - rhs).
Proof.
  intros Hb G Hr. apply iyields_of; [lia|]. apply sub_large_word_yields; auto.
Qed.

Lemma isub_large_yields b rhs : big b -> top_nz (words b) -> wf rhs -> top_nz rhs -> len rhs <= MAX_LEN ->
  iyields (isub_large b rhs) (val (words b) - val rhs).
Proof.
  intros Hb T Wr Tr LR. unfold isub_large. destruct (Nat.leb_spec (length rhs) (length (words b))) as [C|C].
  - destruct (sub_in_place_with_sign_spec (words b) rhs) as (ws & s & E & P); auto; [apply Hb|].
    unfold sub_sign_post in P. destruct P as (L & W & V & Z0).
    rewrite (on_words_ok _ _ _ _ E). cbn [bind]. rewrite <- V.
    apply (iyields_sign (from_buffer (mkBuffer ws (cap b))) s (val ws)).
    + apply val_nonneg; auto.
    + apply (from_buffer_yields (mkBuffer ws (cap b))). destruct b as [bw bc]; cbn [words cap] in *.
      eapply buffer_ok_same; [apply Hb|auto|auto].
  - pose proof (val_lt_len (words b) rhs (proj1 (proj1 Hb)) Wr Tr C) as LT.
    eapply iyields_eq; [apply (iyields_sign _ Negative (val rhs - val (words b)))|cbn [sign_val]; lia]; [lia|].
    apply (sub_large_ref_val_yields rhs b); auto. lia.
Qed.

Lemma sub_val_val_yields a b : ubig_ok a -> ubig_ok b -> iyields (sub_ubig_val_val a b) (uval a - uval b).
Proof.
  intros Ha Hb. destruct a as [x|x], b as [y|y]; cbn [sub_ubig_val_val uval].
  - apply isub_word_word_yields; auto.
  - eapply iyields_eq; [apply iyields_neg, isub_large_word_yields; auto with large|lia].
  - apply isub_large_word_yields; auto with large.
  - destruct (Nat.leb_spec (length (words y)) (length (words x))).
    + apply isub_large_yields; auto with large.
    + eapply iyields_eq; [apply iyields_neg, isub_large_yields; auto with large|lia].
Qed.

Lemma sub_val_ref_yields a b : ubig_ok a -> ubig_ok b -> iyields (sub_ubig_val_ref a b) (uval a - uval b).
Proof.
  intros Ha Hb. destruct a as [x|x], b as [y|y]; cbn [sub_ubig_val_ref uval].
  - apply isub_word_word_yields; auto.
  - clone Hb. eapply iyields_eq; [apply iyields_neg, isub_large_word_yields; auto; rewrite E; auto with large|lia].
  - apply isub_large_word_yields; auto with large.
  - apply isub_large_yields; auto with large.
Qed.

Lemma sub_ref_ref_yields a b : ubig_ok a -> ubig_ok b -> iyields (sub_ubig_ref_ref a b) (uval a - uval b).
Proof.
  intros Ha Hb. destruct a as [x|x], b as [y|y]; cbn [sub_ubig_ref_ref uval].
  - apply isub_word_word_yields; auto.
  - clone Hb. eapply iyields_eq; [apply iyields_neg, isub_large_word_yields; auto; rewrite E; auto with large|lia].
  - clone Ha. apply isub_large_word_yields; auto; rewrite E; auto with large.
  - destruct (Nat.leb_spec (length (words y)) (length (words x))).
    + clone Ha. apply isub_large_yields; auto with large. rewrite E. auto with large.
    + clone Hb. eapply iyields_eq; [apply iyields_neg, isub_large_yields; auto with large|lia]. rewrite E; auto with large.
Qed.

Ltac isolve := eapply iyields_eq;
  [first [ apply iyields_of; [|solve [auto using ubig_add_vv_yields, ubig_add_vr_yields, ubig_add_rr_yields]]
         | apply iyields_neg, iyields_of; [|solve [auto using ubig_add_vv_yields, ubig_add_vr_yields, ubig_add_rr_yields]]
         | solve [auto using sub_val_val_yields, sub_val_ref_yields, sub_ref_ref_yields]
         | apply iyields_neg; solve [auto using sub_val_val_yields, sub_val_ref_yields, sub_ref_ref_yields] ]; lia
  |cbn [sign_val]; lia].

Ltac iunf x y := intros [Hx Zx] [Hy Zy]; pose proof (uval_nonneg _ Hx); pose proof (uval_nonneg _ Hy);
  unfold ival; destruct (isign x), (isign y); isolve.

Lemma ibig_add_vv_yields x y : ibig_ok x -> ibig_ok y -> iyields (ibig_add_vv x y) (ival x + ival y).
Proof. unfold ibig_add_vv. iunf x y. Qed.
Lemma ibig_add_vr_yields x y : ibig_ok x -> ibig_ok y -> iyields (ibig_add_vr x y) (ival x + ival y).
Proof. unfold ibig_add_vr. iunf x y. Qed.
Lemma ibig_add_rv_yields x y : ibig_ok x -> ibig_ok y -> iyields (ibig_add_rv x y) (ival x + ival y).
Proof. intros Hx Hy. rewrite Z.add_comm. apply ibig_add_vr_yields; auto. Qed.
Lemma ibig_add_rr_yields x y : ibig_ok x -> ibig_ok y -> iyields (ibig_add_rr x y) (ival x + ival y).
Proof. unfold ibig_add_rr. iunf x y. Qed.

Lemma ibig_sub_vv_yields x y : ibig_ok x -> ibig_ok y -> iyields (ibig_sub_vv x y) (ival x - ival y).
Proof.
  intros Hx Hy. destruct (ibig_neg_spec y Hy) as [H1 H2].
  eapply iyields_eq; [apply ibig_add_vv_yields; auto|]. lia.
Qed.
Lemma ibig_sub_vr_yields x y : ibig_ok x -> ibig_ok y -> iyields (ibig_sub_vr x y) (ival x - ival y).
Proof.
  intros Hx Hy. destruct (ibig_neg_spec x Hx) as [H1 H2].
  eapply iyields_eq; [apply iyields_neg, ibig_add_vr_yields; auto|]. lia.
Qed.
Lemma ibig_sub_rv_yields x y : ibig_ok x -> ibig_ok y -> iyields (ibig_sub_rv x y) (ival x - ival y).
Proof.
  intros Hx Hy. destruct (ibig_neg_spec y Hy) as [H1 H2].
  eapply iyields_eq; [apply ibig_add_rv_yields; auto|]. lia.
Qed.
Lemma ibig_sub_rr_yields x y : ibig_ok x -> ibig_ok y -> iyields (ibig_sub_rr x y) (ival x - ival y).
Proof. unfold ibig_sub_rr. iunf x y. Qed.

End AddOpsProofs.

#[export] Hint Resolve Large_top Large_wf Large_MAX Large_big Large_ge : large.

Ltac clone H := let b' := fresh "b'" in let Hb := fresh "Hb" in let E := fresh "E" in
  destruct (Large_clone _ H) as (b' & -> & Hb & E); cbn [bind]; try rewrite <- E.
