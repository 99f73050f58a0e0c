(** Correctness of src/add.rs. *)
From Verif Require Import Proofs.Basics Model.Add.

Section AddProofs.
Context {A : Arch} {AOK : ArchOk A}.

Lemma overflowing_add_spec a b : 0 <= a < B -> 0 <= b < B ->
  let '(s, o) := overflowing_add a b in s + B * Z.b2z o = a + b /\ 0 <= s < B.
Proof.
  intros Ha Hb. unfold overflowing_add. destruct (Z.leb_spec B (a + b)).
  - rewrite (mod_eq (a + b - B) (a + b) B 1) by lia. simpl; lia.
  - rewrite Z.mod_small by lia. simpl; lia.
Qed.

Lemma overflowing_sub_spec a b : 0 <= a < B -> 0 <= b < B ->
  let '(s, o) := overflowing_sub a b in s - B * Z.b2z o = a - b /\ 0 <= s < B.
Proof.
  intros Ha Hb. unfold overflowing_sub. destruct (Z.ltb_spec a b).
  - rewrite (mod_eq (a - b + B) (a - b) B (-1)) by lia. simpl; lia.
  - rewrite Z.mod_small by lia. simpl; lia.
Qed.

Lemma b2z_word c : 0 <= Z.b2z c < B.
Proof. pose proof B_ge. destruct c; simpl; lia. Qed.

Lemma add_with_carry_spec a b c : 0 <= a < B -> 0 <= b < B ->
  let '(s, o) := add_with_carry a b c in s + B * Z.b2z o = a + b + Z.b2z c /\ 0 <= s < B.
Proof.
  intros Ha Hb. unfold add_with_carry.
  pose proof (overflowing_add_spec a b Ha Hb) as H1.
  destruct (overflowing_add a b) as [s0 c0]. destruct H1 as [H1 R1].
  pose proof (overflowing_add_spec s0 (Z.b2z c) R1 (b2z_word c)) as H2.
  destruct (overflowing_add s0 (Z.b2z c)) as [s1 c1]. destruct H2 as [H2 R2].
  split; [|auto]. destruct c, c0, c1; cbn [Z.b2z orb] in *; lia.
Qed.

Lemma sub_with_borrow_spec a b c : 0 <= a < B -> 0 <= b < B ->
  let '(s, o) := sub_with_borrow a b c in s - B * Z.b2z o = a - b - Z.b2z c /\ 0 <= s < B.
Proof.
  intros Ha Hb. unfold sub_with_borrow.
  pose proof (overflowing_sub_spec a b Ha Hb) as H1.
  destruct (overflowing_sub a b) as [s0 c0]. destruct H1 as [H1 R1].
  pose proof (overflowing_sub_spec s0 (Z.b2z c) R1 (b2z_word c)) as H2.
  destruct (overflowing_sub s0 (Z.b2z c)) as [s1 c1]. destruct H2 as [H2 R2].
  split; [|auto]. destruct c, c0, c1; cbn [Z.b2z orb] in *; lia.
Qed.

(** The x86 intrinsics and the portable code agree. *)
Lemma x86_add_with_carry_eq a b c : 0 <= a < B -> 0 <= b < B ->
  x86_add_with_carry a b c = add_with_carry a b c.
Proof.
  intros Ha Hb. pose proof (add_with_carry_spec a b c Ha Hb) as H.
  destruct (add_with_carry a b c) as [s o]. destruct H as [H R].
  unfold x86_add_with_carry. f_equal.
  - apply mod_eq with (Z.b2z o); lia.
  - destruct o; cbn [Z.b2z] in *; lia.
Qed.
Lemma x86_sub_with_borrow_eq a b c : 0 <= a < B -> 0 <= b < B ->
  x86_sub_with_borrow a b c = sub_with_borrow a b c.
Proof.
  intros Ha Hb. pose proof (sub_with_borrow_spec a b c Ha Hb) as H.
  destruct (sub_with_borrow a b c) as [s o]. destruct H as [H R].
  unfold x86_sub_with_borrow. f_equal.
  - apply mod_eq with (- Z.b2z o); lia.
  - destruct o; cbn [Z.b2z] in *; lia.
Qed.

(** Shape of every "update a slice, return a carry" result. *)
Definition upd_post (ws ws' : list Z) (delta carry : Z) : Prop :=
  length ws' = length ws /\ wf ws' /\ val ws' + Bn (length ws) * carry = val ws + delta.

Lemma add_one_spec ws : wf ws ->
  let '(ws', o) := add_one_in_place ws in upd_post ws ws' 1 (Z.b2z o).
Proof.
  unfold upd_post. induction ws as [|w t IH]; intros H; cbn [add_one_in_place].
  - simpl. rewrite Bn_0. auto.
  - apply wf_cons in H as [Hw Ht]. pose proof B_ge.
    pose proof (overflowing_add_spec w 1 Hw ltac:(lia)) as H1.
    destruct (overflowing_add w 1) as [a o]. destruct H1 as [H1 R1].
    destruct o; cbn [negb Z.b2z] in *.
    + specialize (IH Ht). destruct (add_one_in_place t) as [t' o]. destruct IH as (L & W & V).
      simpl length. rewrite Bn_S, !val_cons, wf_cons, L. mulB V. repeat split; auto; lia.
    + simpl length. rewrite !val_cons, wf_cons. repeat split; auto; lia.
Qed.

Lemma sub_one_spec ws : wf ws ->
  let '(ws', o) := sub_one_in_place ws in upd_post ws ws' (-1) (- Z.b2z o).
Proof.
  unfold upd_post. induction ws as [|w t IH]; intros H; cbn [sub_one_in_place].
  - simpl. rewrite Bn_0. auto.
  - apply wf_cons in H as [Hw Ht]. pose proof B_ge.
    pose proof (overflowing_sub_spec w 1 Hw ltac:(lia)) as H1.
    destruct (overflowing_sub w 1) as [a o]. destruct H1 as [H1 R1].
    destruct o; cbn [negb Z.b2z] in *.
    + specialize (IH Ht). destruct (sub_one_in_place t) as [t' o]. destruct IH as (L & W & V).
      simpl length. rewrite Bn_S, !val_cons, wf_cons, L. mulB V. repeat split; auto; lia.
    + simpl length. rewrite !val_cons, wf_cons. repeat split; auto; lia.
Qed.

Lemma add_word_spec ws rhs : wf ws -> (0 < length ws)%nat -> 0 <= rhs < B ->
  exists ws' o, add_word_in_place ws rhs = Ok (ws', o) /\ upd_post ws ws' rhs (Z.b2z o).
Proof.
  unfold upd_post. intros H L Hr. destruct ws as [|w t]; [simpl in L; lia|].
  cbn [add_word_in_place]. apply wf_cons in H as [Hw Ht].
  pose proof (overflowing_add_spec w rhs Hw Hr) as H1.
  destruct (overflowing_add w rhs) as [a o]. destruct H1 as [H1 R1].
  destruct o; cbn [Z.b2z] in *.
  - pose proof (add_one_spec t Ht) as H2. destruct (add_one_in_place t) as [t' o].
    destruct H2 as (L2 & W2 & V2). do 2 eexists; split; [reflexivity|].
    simpl length. rewrite Bn_S, !val_cons, wf_cons, L2. mulB V2. repeat split; auto; lia.
  - do 2 eexists; split; [reflexivity|]. rewrite !val_cons, wf_cons. simpl; repeat split; auto; lia.
Qed.

Lemma sub_word_spec ws rhs : wf ws -> (0 < length ws)%nat -> 0 <= rhs < B ->
  exists ws' o, sub_word_in_place ws rhs = Ok (ws', o) /\ upd_post ws ws' (- rhs) (- Z.b2z o).
Proof.
  unfold upd_post. intros H L Hr. destruct ws as [|w t]; [simpl in L; lia|].
  cbn [sub_word_in_place]. apply wf_cons in H as [Hw Ht].
  pose proof (overflowing_sub_spec w rhs Hw Hr) as H1.
  destruct (overflowing_sub w rhs) as [a o]. destruct H1 as [H1 R1].
  destruct o; cbn [Z.b2z] in *.
  - pose proof (sub_one_spec t Ht) as H2. destruct (sub_one_in_place t) as [t' o].
    destruct H2 as (L2 & W2 & V2). do 2 eexists; split; [reflexivity|].
    simpl length. rewrite Bn_S, !val_cons, wf_cons, L2. mulB V2. repeat split; auto; lia.
  - do 2 eexists; split; [reflexivity|]. rewrite !val_cons, wf_cons. simpl; repeat split; auto; lia.
Qed.

Lemma add_loop_spec ws rhs c : wf ws -> wf rhs -> length ws = length rhs ->
  let '(ws', o) := add_loop ws rhs c in upd_post ws ws' (val rhs + Z.b2z c) (Z.b2z o).
Proof.
  unfold upd_post. revert rhs c; induction ws as [|a t IH]; intros [|b r] c H Hr L; simpl in L; try discriminate.
  - simpl. rewrite Bn_0. repeat split; auto; lia.
  - apply wf_cons in H as [Hw Ht]. apply wf_cons in Hr as [Hb Hr]. cbn [add_loop].
    pose proof (add_with_carry_spec a b c Hw Hb) as H1. destruct (add_with_carry a b c) as [s o].
    destruct H1 as [H1 R1]. specialize (IH r o Ht Hr ltac:(lia)).
    destruct (add_loop t r o) as [t' o']. destruct IH as (L2 & W2 & V2).
    simpl length. rewrite Bn_S, !val_cons, wf_cons, L2. mulB V2. repeat split; auto; lia.
Qed.

Lemma sub_loop_spec ws rhs c : wf ws -> wf rhs -> length ws = length rhs ->
  let '(ws', o) := sub_loop ws rhs c in upd_post ws ws' (- val rhs - Z.b2z c) (- Z.b2z o).
Proof.
  unfold upd_post. revert rhs c; induction ws as [|a t IH]; intros [|b r] c H Hr L; simpl in L; try discriminate.
  - simpl. rewrite Bn_0. repeat split; auto; lia.
  - apply wf_cons in H as [Hw Ht]. apply wf_cons in Hr as [Hb Hr]. cbn [sub_loop].
    pose proof (sub_with_borrow_spec a b c Hw Hb) as H1. destruct (sub_with_borrow a b c) as [s o].
    destruct H1 as [H1 R1]. specialize (IH r o Ht Hr ltac:(lia)).
    destruct (sub_loop t r o) as [t' o']. destruct IH as (L2 & W2 & V2).
    simpl length. rewrite Bn_S, !val_cons, wf_cons, L2. mulB V2. repeat split; auto; lia.
Qed.

Lemma add_same_len_spec ws rhs : wf ws -> wf rhs -> length ws = length rhs ->
  exists ws' o, add_same_len_in_place ws rhs = Ok (ws', o) /\ upd_post ws ws' (val rhs) (Z.b2z o).
Proof.
  intros H Hr L. unfold add_same_len_in_place. rewrite check_true by (apply Nat.eqb_eq; auto).
  pose proof (add_loop_spec ws rhs false H Hr L) as S. destruct (add_loop ws rhs false) as [ws' o].
  do 2 eexists; split; [reflexivity|]. cbn [Z.b2z] in S. rewrite Z.add_0_r in S; auto.
Qed.

Lemma sub_same_len_spec ws rhs : wf ws -> wf rhs -> length ws = length rhs ->
  exists ws' o, sub_same_len_in_place ws rhs = Ok (ws', o) /\ upd_post ws ws' (- val rhs) (- Z.b2z o).
Proof.
  intros H Hr L. unfold sub_same_len_in_place. rewrite check_true by (apply Nat.eqb_eq; auto).
  pose proof (sub_loop_spec ws rhs false H Hr L) as S. destruct (sub_loop ws rhs false) as [ws' o].
  do 2 eexists; split; [reflexivity|]. cbn [Z.b2z] in S. rewrite Z.sub_0_r in S; auto.
Qed.

Lemma sub_same_len_swap_spec lhs rhs : wf lhs -> wf rhs -> length lhs = length rhs ->
  exists rhs' o, sub_same_len_in_place_swap lhs rhs = Ok (rhs', o) /\
    length rhs' = length rhs /\ wf rhs' /\
    val rhs' - Bn (length rhs) * Z.b2z o = val lhs - val rhs.
Proof.
  intros H Hr L. destruct (sub_same_len_spec lhs rhs H Hr L) as (w & o & E & L2 & W2 & V2).
  exists w, o. split; [exact E|]. rewrite <- L. repeat split; auto; lia.
Qed.

Lemma add_in_place_spec lhs rhs : wf lhs -> wf rhs -> (length rhs <= length lhs)%nat ->
  exists ws' o, add_in_place lhs rhs = Ok (ws', o) /\ upd_post lhs ws' (val rhs) (Z.b2z o).
Proof.
  intros H Hr L. unfold add_in_place, upd_post. rewrite split_at_Ok by auto. cbn [bind].
  destruct (list_split _ _ L) as (lo & hi & -> & L1 & L2 & -> & ->).
  apply wf_app in H as [Hlo Hhi].
  destruct (add_same_len_spec lo rhs Hlo Hr L1) as (lo' & o & -> & L3 & W3 & V3). cbn [bind].
  rewrite app_length, Bn_add, val_app. destruct o; cbn [Z.b2z] in *.
  - pose proof (add_one_spec hi Hhi) as S. destruct (add_one_in_place hi) as [hi' o'].
    destruct S as (L4 & W4 & V4). do 2 eexists; split; [reflexivity|].
    rewrite app_length, val_app, wf_app, L3, L4.
    apply (f_equal (Z.mul (Bn (length lo)))) in V4. repeat split; auto; lia.
  - do 2 eexists; split; [reflexivity|]. rewrite app_length, val_app, wf_app, L3. cbn [Z.b2z].
    repeat split; auto; lia.
Qed.

Lemma sub_in_place_spec lhs rhs : wf lhs -> wf rhs -> (length rhs <= length lhs)%nat ->
  exists ws' o, sub_in_place lhs rhs = Ok (ws', o) /\ upd_post lhs ws' (- val rhs) (- Z.b2z o).
Proof.
  intros H Hr L. unfold sub_in_place, upd_post. rewrite split_at_Ok by auto. cbn [bind].
  destruct (list_split _ _ L) as (lo & hi & -> & L1 & L2 & -> & ->).
  apply wf_app in H as [Hlo Hhi].
  destruct (sub_same_len_spec lo rhs Hlo Hr L1) as (lo' & o & -> & L3 & W3 & V3). cbn [bind].
  rewrite app_length, Bn_add, val_app. destruct o; cbn [Z.b2z] in *.
  - pose proof (sub_one_spec hi Hhi) as S. destruct (sub_one_in_place hi) as [hi' o'].
    destruct S as (L4 & W4 & V4). do 2 eexists; split; [reflexivity|].
    rewrite app_length, val_app, wf_app, L3, L4.
    apply (f_equal (Z.mul (Bn (length lo)))) in V4. repeat split; auto; lia.
  - do 2 eexists; split; [reflexivity|]. rewrite app_length, val_app, wf_app, L3. cbn [Z.b2z].
    repeat split; auto; lia.
Qed.

(** No carry / borrow when the mathematical result fits. *)
Lemma upd_post_nocarry ws ws' d c : wf ws -> upd_post ws ws' d c ->
  0 <= val ws + d < Bn (length ws) -> c = 0 /\ val ws' = val ws + d.
Proof.
  intros H (L & W & V) R. apply val_bound in W. rewrite L in W.
  destruct (decomp (val ws') c (val ws + d) 0 (Bn (length ws))) as [-> ->]; auto; lia.
Qed.

Lemma b2z_0 o : Z.b2z o = 0 -> o = false.
Proof. destruct o; simpl; [discriminate|auto]. Qed.

(** Trimming. *)
Lemma trim_len_le ws n : (trim_len ws n <= n)%nat.
Proof. induction n; simpl; auto. destruct (_ =? _); lia. Qed.

Lemma firstn_S_nth ws n : (n < length ws)%nat ->
  firstn (S n) ws = firstn n ws ++ [nth n ws 0].
Proof. revert n; induction ws as [|x ws IH]; intros [|n] H; simpl in *; try lia; auto.
  f_equal. apply IH; lia. Qed.

Lemma val_firstn_S ws n : (n < length ws)%nat ->
  val (firstn (S n) ws) = val (firstn n ws) + Bn n * nth n ws 0.
Proof. intros H. rewrite firstn_S_nth, val_app, val_single, firstn_length_le by lia. reflexivity. Qed.

Lemma trim_len_firstn ws n : (n <= length ws)%nat ->
  val (firstn (trim_len ws n) ws) = val (firstn n ws).
Proof.
  induction n; intros H; simpl trim_len; auto.
  destruct (Z.eqb_spec (nth n ws 0) 0) as [E|E]; auto.
  rewrite IHn, val_firstn_S, E by lia. lia.
Qed.

Lemma trim_len_top ws n m : trim_len ws n = S m -> nth m ws 0 <> 0.
Proof. induction n; simpl; [discriminate|]. destruct (Z.eqb_spec (nth n ws 0) 0); auto. congruence. Qed.

Lemma trim_len_val ws : val (firstn (trim_len ws (length ws)) ws) = val ws.
Proof. rewrite trim_len_firstn, firstn_all by auto. reflexivity. Qed.

Lemma trim_len_skip ws n : wf ws -> (n <= length ws)%nat ->
  val (firstn n ws) = val ws -> val (skipn n ws) = 0.
Proof. intros H L E. rewrite (val_firstn_skipn n ws L) in E. pose proof (Bn_pos n).
  assert (Bn n * val (skipn n ws) = 0) as E2 by lia. apply Z.mul_eq_0 in E2. lia. Qed.

Lemma val_top_lower ws m : wf ws -> (m < length ws)%nat -> nth m ws 0 <> 0 ->
  Bn m <= val (firstn (S m) ws).
Proof.
  intros H L N. rewrite val_firstn_S by auto. pose proof (val_nonneg _ (wf_firstn m _ H)).
  pose proof (wf_nth ws m H). pose proof (Bn_pos m). nia.
Qed.

Lemma val_firstn_bound ws m : wf ws -> (m <= length ws)%nat -> 0 <= val (firstn m ws) < Bn m.
Proof. intros H L. pose proof (val_bound _ (wf_firstn m _ H)) as R. rewrite firstn_length_le in R; auto. Qed.

(** |lhs - rhs| and the sign. *)
Definition sub_sign_post (lhs rhs lhs' : list Z) (s : sign) : Prop :=
  length lhs' = length lhs /\ wf lhs' /\ sign_val s * val lhs' = val lhs - val rhs /\
  (val lhs' = 0 -> s = Positive).

Lemma firstn_upd_ge {T} m n (v : T) l : (m <= n)%nat -> firstn m (upd n v l) = firstn m l.
Proof. revert m n; induction l; intros [|m] [|n] L; simpl; auto; try lia. f_equal. apply IHl; lia. Qed.

Lemma skipn_nth_cons (l : list Z) m : (m < length l)%nat -> skipn m l = nth m l 0 :: skipn (S m) l.
Proof. revert m; induction l as [|x l IH]; intros [|m] L; simpl in *; try lia; auto. apply IH; lia. Qed.

Lemma skipn_upd_lt {T} m n (v : T) l : (n < m)%nat -> skipn m (upd n v l) = skipn m l.
Proof. revert m n; induction l; intros [|m] [|n] L; simpl; auto; try lia. apply IHl; lia. Qed.

Lemma sub_sign_eq_loop_spec n : forall lhs rhs, wf lhs -> wf rhs ->
  (n <= length rhs)%nat -> (length rhs <= length lhs)%nat ->
  val (skipn n lhs) = 0 ->
  exists lhs' s, sub_sign_eq_loop lhs rhs n = Ok (lhs', s) /\
    length lhs' = length lhs /\ wf lhs' /\
    sign_val s * val lhs' = val (firstn n lhs) - val (firstn n rhs) /\
    (val lhs' = 0 -> s = Positive).
Proof.
  induction n as [|m IH]; intros lhs rhs Hl Hr L1 L2 Zl; cbn [sub_sign_eq_loop].
  - simpl in Zl. do 2 eexists; split; [reflexivity|]. simpl. repeat split; auto; lia.
  - pose proof (wf_firstn (S m) _ Hl) as Wl. pose proof (wf_firstn (S m) _ Hr) as Wr.
    pose proof (firstn_length_le lhs (n := S m) ltac:(lia)) as Ll.
    pose proof (firstn_length_le rhs (n := S m) ltac:(lia)) as Lr.
    pose proof (val_firstn_S lhs m ltac:(lia)) as El.
    pose proof (val_firstn_S rhs m ltac:(lia)) as Er.
    pose proof (val_firstn_bound lhs m Hl ltac:(lia)) as Bl.
    pose proof (val_firstn_bound rhs m Hr ltac:(lia)) as Br.
    pose proof (Bn_pos m) as Pm.
    pose proof (val_firstn_bound lhs (S m) Hl ltac:(lia)) as Bl'.
    pose proof (val_firstn_bound rhs (S m) Hr ltac:(lia)) as Br'.
    pose proof (skipn_length (S m) lhs) as Ls.
    pose proof (wf_skipn (S m) _ Hl) as Ws.
    destruct (Z.compare_spec (nth m lhs 0) (nth m rhs 0)) as [E|E|E].
    + destruct (IH (upd m 0 lhs) rhs) as (lhs' & s & E2 & L3 & W3 & V3 & S3); auto; try lia.
      * apply wf_upd; auto. pose proof B_pos; lia.
      * rewrite length_upd; lia.
      * rewrite skipn_nth_cons by (rewrite length_upd; lia).
        rewrite nth_upd_eq, skipn_upd_lt, val_cons, Zl by lia. lia.
      * exists lhs', s. split; auto. rewrite length_upd in L3. rewrite firstn_upd_ge in V3 by lia.
        repeat split; auto. rewrite V3, El, Er, E. lia.
    + rewrite split_at_Ok, slice_to_Ok by lia. cbn [bind].
      destruct (sub_same_len_swap_spec (firstn (S m) rhs) (firstn (S m) lhs)) as (lo & o & -> & L3 & W3 & V3);
        auto; [congruence|]. cbn [bind].
      assert (val (firstn (S m) lhs) < val (firstn (S m) rhs)) by nia.
      assert (o = false) as ->.
      { destruct o; auto. cbn [Z.b2z] in V3. pose proof (val_bound _ W3). rewrite L3 in *. lia. }
      rewrite check_true by reflexivity. do 2 eexists; split; [reflexivity|].
      rewrite app_length, val_app, wf_app, Zl, L3. cbn [Z.b2z sign_val] in *. repeat split; auto; try lia.
    + rewrite split_at_Ok, slice_to_Ok by lia. cbn [bind].
      destruct (sub_same_len_spec (firstn (S m) lhs) (firstn (S m) rhs)) as (lo & o & -> & L3 & W3 & V3);
        auto; [congruence|]. cbn [bind].
      assert (val (firstn (S m) rhs) < val (firstn (S m) lhs)) by nia.
      assert (o = false) as ->.
      { destruct o; auto. cbn [Z.b2z] in V3. pose proof (val_bound _ W3). rewrite L3 in *. lia. }
      rewrite check_true by reflexivity. do 2 eexists; split; [reflexivity|].
      rewrite app_length, val_app, wf_app, Zl, L3. cbn [Z.b2z sign_val] in *. repeat split; auto; try lia.
Qed.

Lemma sub_in_place_with_sign_spec lhs rhs : wf lhs -> wf rhs -> (length rhs <= length lhs)%nat ->
  exists lhs' s, sub_in_place_with_sign lhs rhs = Ok (lhs', s) /\ sub_sign_post lhs rhs lhs' s.
Proof.
  unfold sub_sign_post, sub_in_place_with_sign. intros Hl Hr L.
  rewrite check_true by (apply Nat.leb_le; auto).
  pose proof (trim_len_le lhs (length lhs)) as Tl. pose proof (trim_len_val lhs) as Vl.
  pose proof (trim_len_le rhs (length rhs)) as Tr. pose proof (trim_len_val rhs) as Vr.
  pose proof (trim_len_top lhs (length lhs)) as Pl. pose proof (trim_len_top rhs (length rhs)) as Pr.
  set (n := trim_len lhs (length lhs)) in *. set (m := trim_len rhs (length rhs)) in *.
  assert (val (skipn n lhs) = 0) as Zl by (apply trim_len_skip; auto).
  pose proof (skipn_length n lhs) as Ls. pose proof (wf_skipn n _ Hl) as Ws.
  pose proof (firstn_length_le lhs Tl) as Ll. pose proof (firstn_length_le rhs Tr) as Lr.
  pose proof (wf_firstn n _ Hl) as Wl. pose proof (wf_firstn m _ Hr) as Wr.
  pose proof (val_firstn_bound lhs n Hl Tl) as Bl. pose proof (val_firstn_bound rhs m Hr Tr) as Br.
  destruct (Nat.compare_spec n m) as [E|E|E].
  - destruct (sub_sign_eq_loop_spec n lhs rhs) as (l & s & E2 & L3 & W3 & V3 & S3); auto; try lia.
    exists l, s. split; auto. rewrite E, Vr, <- E, Vl in V3. auto.
  - (* lhs shorter *)
    destruct m as [|m']; [lia|]. specialize (Pr m' eq_refl).
    pose proof (val_top_lower rhs m' Hr ltac:(lia) Pr) as Lo. pose proof (Bn_le n m' ltac:(lia)) as Le.
    rewrite split_at_Ok, slice_to_Ok by lia. cbn [bind].
    pose proof (wf_firstn n _ Hr) as Wrn.
    pose proof (firstn_length_le rhs (n := n) ltac:(lia)) as Lrn.
    destruct (sub_same_len_swap_spec (firstn n rhs) (firstn n lhs)) as (lo & o & -> & L3 & W3 & V3); auto; [lia|].
    cbn [bind]. rewrite split_at_Ok, slice_to_Ok by (rewrite skipn_length; lia). cbn [bind].
    set (k := (S m' - n)%nat) in *.
    assert (firstn (S m') rhs = firstn n rhs ++ firstn k (skipn n rhs)) as Er.
    { replace (S m') with (n + k)%nat by lia. clear. generalize n. intros a. revert rhs.
      induction a; intros [|x l]; simpl; auto; [rewrite firstn_nil; auto|]. f_equal; auto. }
    set (mid := firstn k (skipn n rhs)) in *.
    assert (wf mid) as Wm by (apply wf_firstn, wf_skipn; auto).
    assert (length mid = k) as Lm by (apply firstn_length_le; rewrite skipn_length; lia).
    set (rest := skipn k (skipn n lhs)) in *.
    assert (wf rest) as Wt by (apply wf_skipn; auto).
    assert (length rest = (length lhs - n - k)%nat) as Lt by (unfold rest; rewrite !skipn_length; lia).
    assert (val rest = 0) as Zt.
    { pose proof (val_firstn_skipn k (skipn n lhs) ltac:(lia)) as Q. fold rest in Q.
      pose proof (val_nonneg _ (wf_firstn k _ Ws)). pose proof (val_nonneg _ Wt). pose proof (Bn_pos k).
      assert (0 <= Bn k * val rest) by nia. assert (Bn k * val rest = 0) as Q2 by lia.
      apply Z.mul_eq_0 in Q2. lia. }
    rewrite Er, val_app, Lrn in Vr. rewrite Ll in *. pose proof (Bn_pos n) as Pn.
    rewrite Er, val_app, Lrn in Lo.
    destruct o; cbn [Z.b2z] in *.
    + pose proof (sub_one_spec mid Wm) as S. destruct (sub_one_in_place mid) as [mid' o].
      destruct S as (L4 & W4 & V4).
      assert (o = false) as ->.
      { destruct o; auto. exfalso. cbn [Z.b2z] in V4. pose proof (val_bound _ W4) as B4. rewrite L4 in *.
        assert (val mid = 0) by (pose proof (val_nonneg _ Wm); lia).
        pose proof (val_bound _ W3) as B3. rewrite L3 in B3. rewrite H, Z.mul_0_r, Z.add_0_r in *.
        pose proof (val_bound _ Wrn) as B5. rewrite Lrn in B5. lia. }
      rewrite check_true by reflexivity. do 2 eexists; split; [reflexivity|].
      rewrite !app_length, !val_app, !wf_app, Zt, L3, L4. cbn [Z.b2z sign_val] in *.
      apply (f_equal (Z.mul (Bn n))) in V4.
      repeat split; auto; try lia.
    + do 2 eexists; split; [reflexivity|].
      rewrite !app_length, !val_app, !wf_app, Zt, L3. cbn [Z.b2z sign_val] in *.
      repeat split; auto; try lia.
  - (* rhs shorter *)
    destruct n as [|n']; [lia|]. specialize (Pl n' eq_refl).
    pose proof (val_top_lower lhs n' Hl ltac:(lia) Pl) as Lo. pose proof (Bn_le m n' ltac:(lia)) as Le.
    rewrite split_at_Ok, slice_to_Ok by lia. cbn [bind].
    destruct (sub_in_place_spec (firstn (S n') lhs) (firstn m rhs)) as (lo & o & -> & L3 & W3 & V3); auto; [lia|].
    cbn [bind].
    assert (o = false) as ->.
    { destruct o; auto. cbn [Z.b2z] in V3. pose proof (val_bound _ W3). rewrite L3 in *. lia. }
    rewrite check_true by reflexivity. do 2 eexists; split; [reflexivity|].
    rewrite app_length, val_app, wf_app, Zl, L3. cbn [Z.b2z sign_val] in *. repeat split; auto; lia.
Qed.

(** Signed variants. *)
Lemma signed_to_sign_magnitude_spec x : - B <= 2 * x < B ->
  let '(s, u) := signed_to_sign_magnitude x in x = sign_val s * u /\ 0 <= u < B.
Proof.
  intros H. unfold signed_to_sign_magnitude. pose proof B_ge as HB.
  destruct (Z.leb_spec 0 x); cbn [sign_val]; [lia|].
  rewrite (mod_eq (x + B) x B (-1)) by lia.
  rewrite (mod_eq (- x) (- (x + B)) B (-1)) by lia. lia.
Qed.

Lemma add_signed_word_spec ws x : wf ws -> - B <= 2 * x < B ->
  exists ws' c, add_signed_word_in_place ws x = Ok (ws', c) /\ upd_post ws ws' x c /\
    (- B <= 2 * c < B) /\ (ws <> [] -> -1 <= c <= 1).
Proof.
  intros H Hx. unfold add_signed_word_in_place, upd_post. pose proof B_ge as HB.
  destruct (Z.eqb_spec x 0) as [->|Nx]; cbn [orb].
  { do 2 eexists; split; [reflexivity|]. repeat split; auto; lia. }
  destruct ws as [|w t]; cbn [length Nat.eqb].
  { do 2 eexists; split; [reflexivity|]. rewrite Bn_0. repeat split; auto; try lia; congruence. }
  pose proof (signed_to_sign_magnitude_spec x Hx) as S.
  destruct (signed_to_sign_magnitude x) as [[] u]; destruct S as [S R]; cbn [sign_val] in S.
  - destruct (add_word_spec (w :: t) u H ltac:(simpl; lia) R) as (ws' & o & -> & L & W & V). cbn [bind].
    do 2 eexists; split; [reflexivity|]. repeat split; auto; intros; destruct o; cbn [Z.b2z length] in *; lia.
  - destruct (sub_word_spec (w :: t) u H ltac:(simpl; lia) R) as (ws' & o & -> & L & W & V). cbn [bind].
    do 2 eexists; split; [reflexivity|]. repeat split; auto; intros; destruct o; cbn [Z.b2z length] in *; lia.
Qed.

Lemma add_signed_same_len_spec ws s rhs : wf ws -> wf rhs -> length ws = length rhs ->
  exists ws' c, add_signed_same_len_in_place ws s rhs = Ok (ws', c) /\
    upd_post ws ws' (sign_val s * val rhs) c /\ -1 <= c <= 1.
Proof.
  intros H Hr L. unfold add_signed_same_len_in_place. rewrite check_true by (apply Nat.eqb_eq; auto).
  unfold upd_post. destruct s; cbn [sign_val].
  - destruct (add_same_len_spec ws rhs H Hr L) as (ws' & o & -> & L2 & W & V). cbn [bind].
    do 2 eexists; split; [reflexivity|]. repeat split; auto; destruct o; cbn [Z.b2z] in *; lia.
  - destruct (sub_same_len_spec ws rhs H Hr L) as (ws' & o & -> & L2 & W & V). cbn [bind].
    do 2 eexists; split; [reflexivity|]. repeat split; auto; destruct o; cbn [Z.b2z] in *; lia.
Qed.

Lemma add_signed_spec ws s rhs : wf ws -> wf rhs -> (length rhs <= length ws)%nat ->
  exists ws' c, add_signed_in_place ws s rhs = Ok (ws', c) /\
    upd_post ws ws' (sign_val s * val rhs) c /\ -1 <= c <= 1.
Proof.
  intros H Hr L. unfold add_signed_in_place. rewrite check_true by (apply Nat.leb_le; auto).
  unfold upd_post. destruct s; cbn [sign_val].
  - destruct (add_in_place_spec ws rhs H Hr L) as (ws' & o & -> & L2 & W & V). cbn [bind].
    do 2 eexists; split; [reflexivity|]. repeat split; auto; destruct o; cbn [Z.b2z] in *; lia.
  - destruct (sub_in_place_spec ws rhs H Hr L) as (ws' & o & -> & L2 & W & V). cbn [bind].
    do 2 eexists; split; [reflexivity|]. repeat split; auto; destruct o; cbn [Z.b2z] in *; lia.
Qed.

End AddProofs.
