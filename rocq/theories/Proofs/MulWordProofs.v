(** Correctness of the word-by-slice products of src/mul/mod.rs and of the
    schoolbook multiplication of src/mul/simple.rs. *)
From Verif Require Import Proofs.Basics Proofs.AddProofs Proofs.ShiftProofs Proofs.FastDivideProofs.
From Verif Require Import Model.Add Model.Memory Model.Mul.

Section MulWordProofs.
Context {A : Arch} {AOK : ArchOk A}.

(** Effect of an operation on [c[i..j]] that adds [d] and leaves carry [k]. *)
Definition wpost (c c' : list Z) (i j : nat) (d k : Z) : Prop :=
  length c' = length c /\ wf c' /\ val c' + Bn j * k = val c + Bn i * d.

Lemma skipn_skipn_nat {T} x y (l : list T) : skipn x (skipn y l) = skipn (x + y) l.
Proof. revert l; induction y; intros l; [rewrite Nat.add_0_r; reflexivity|].
  destruct l; [rewrite !skipn_nil; reflexivity|]. rewrite Nat.add_succ_r. cbn [skipn]. auto. Qed.

Lemma on_window_spec {R} (toZ : R -> Z) i j c f d (P : R -> Prop) :
  wf c -> (i <= j)%nat -> (j <= length c)%nat ->
  (forall w, wf w -> length w = (j - i)%nat ->
     exists w' r, f w = Ok (w', r) /\ upd_post w w' d (toZ r) /\ P r) ->
  exists c' r, on_window i j c f = Ok (c', r) /\ wpost c c' i j d (toZ r) /\ P r.
Proof.
  intros Hc Hij Hj Hf. unfold on_window.
  rewrite (proj2 (Nat.leb_le i j)), (proj2 (Nat.leb_le j (length c))) by auto. cbn [andb].
  set (pre := firstn i c). set (w := firstn (j - i) (skipn i c)). set (post := skipn j c).
  assert (c = pre ++ w ++ post) as Ec.
  { unfold pre, w, post. rewrite <- (firstn_skipn i c) at 1. f_equal.
    rewrite <- (firstn_skipn (j - i) (skipn i c)) at 1. f_equal.
    rewrite skipn_skipn_nat. f_equal. lia. }
  assert (length pre = i) as Lp by (apply firstn_length_le; lia).
  assert (length w = (j - i)%nat) as Lw by (apply firstn_length_le; rewrite skipn_length; lia).
  assert (wf pre) as Wp by (apply wf_firstn; auto).
  assert (wf w) as Ww by (apply wf_firstn, wf_skipn; auto).
  assert (wf post) as Wo by (apply wf_skipn; auto).
  clearbody pre w post.
  destruct (Hf w Ww Lw) as (w' & r & -> & (L & W & V) & HP). cbn [bind].
  exists (pre ++ w' ++ post), r. split; [reflexivity|]. split; [|exact HP].
  unfold wpost. rewrite Ec, !app_length, !wf_app, !val_app, L, Lp, Lw in *.
  replace (Bn j) with (Bn i * Bn (j - i)) by (rewrite <- Bn_add; f_equal; lia).
  apply (f_equal (Z.mul (Bn i))) in V. repeat split; auto; lia.
Qed.

Lemma mul_word_with_carry_spec ws rhs : forall carry, wf ws -> 0 <= rhs < B -> 0 <= carry < B ->
  exists ws' k, mul_word_in_place_with_carry ws rhs carry = Ok (ws', k) /\
    length ws' = length ws /\ wf ws' /\ 0 <= k < B /\
    val ws' + Bn (length ws) * k = val ws * rhs + carry.
Proof.
  pose proof B_ge as HB.
  induction ws as [|a t IH]; intros carry Hw Hr Hc; cbn [mul_word_in_place_with_carry].
  - do 2 eexists; split; [reflexivity|]. simpl. rewrite Bn_0. repeat split; auto using wf_nil; lia.
  - apply wf_cons in Hw as [Hw Ht]. unfold extend_word.
    rewrite dword_chk_ok by (apply mul_range; lia). cbn [bind].
    mnn a rhs. mle a rhs (B - 1). mle (B - 1) a (B - 1).
    rewrite dword_chk_ok by lia. cbn [bind].
    destruct (split_double_word (a * rhs + carry)) as [lo hi] eqn:E.
    apply split_double_word_val in E as (V & Rl & Rh); [|lia].
    destruct (IH hi Ht Hr Rh) as (t' & k & -> & L & W & Rk & V2). cbn [bind].
    do 2 eexists; split; [reflexivity|]. simpl length. rewrite wf_cons, L, Bn_S, !val_cons.
    mulB V2. repeat split; auto; lia.
Qed.

Lemma mul_word_spec ws rhs : wf ws -> 0 <= rhs < B ->
  exists ws' k, mul_word_in_place ws rhs = Ok (ws', k) /\
    length ws' = length ws /\ wf ws' /\ 0 <= k < B /\
    val ws' + Bn (length ws) * k = val ws * rhs.
Proof.
  intros Hw Hr. pose proof B_ge as HB.
  destruct (mul_word_with_carry_spec ws rhs 0 Hw Hr) as (ws' & k & E & H); [lia|].
  exists ws', k. split; [exact E|]. rewrite Z.add_0_r in H. exact H.
Qed.

Lemma add_mul_word_loop_spec ws mult : forall rhs carry, wf ws -> wf rhs -> length ws = length rhs ->
  0 <= mult < B -> 0 <= carry < B ->
  exists ws' k, add_mul_word_loop ws mult rhs carry = Ok (ws', k) /\
    upd_post ws ws' (mult * val rhs + carry) k /\ 0 <= k < B.
Proof.
  unfold upd_post. pose proof B_ge as HB.
  induction ws as [|a t IH]; intros [|b r] carry Hw Hr L Hm Hc; simpl in L; try discriminate;
    cbn [add_mul_word_loop].
  - do 2 eexists; split; [reflexivity|]. simpl. rewrite Bn_0. repeat split; auto using wf_nil; lia.
  - apply wf_cons in Hw as [Hw Ht]. apply wf_cons in Hr as [Hb Hr]. unfold extend_word.
    mle B 2 B. rewrite dword_chk_ok by lia. cbn [bind].
    rewrite dword_chk_ok by (apply mul_range; lia). cbn [bind].
    mnn mult b. mle mult b (B - 1). mle (B - 1) mult (B - 1).
    rewrite dword_chk_ok by lia. cbn [bind].
    destruct (split_double_word (a + carry + mult * b)) as [lo hi] eqn:E.
    apply split_double_word_val in E as (V & Rl & Rh); [|lia].
    destruct (IH r hi Ht Hr ltac:(lia) Hm Rh) as (t' & k & -> & (L2 & W & V2) & Rk). cbn [bind].
    do 2 eexists; split; [reflexivity|]. simpl length. rewrite wf_cons, L2, Bn_S, !val_cons.
    mulB V2. repeat split; auto; lia.
Qed.

Lemma add_mul_word_same_len_spec ws mult rhs : wf ws -> wf rhs -> length ws = length rhs ->
  0 <= mult < B ->
  exists ws' k, add_mul_word_same_len_in_place ws mult rhs = Ok (ws', k) /\
    upd_post ws ws' (mult * val rhs) k /\ 0 <= k < B.
Proof.
  intros Hw Hr L Hm. unfold add_mul_word_same_len_in_place. pose proof B_ge as HB.
  rewrite check_true by (apply Nat.eqb_eq; auto).
  destruct (add_mul_word_loop_spec ws mult rhs 0 Hw Hr L Hm) as (ws' & k & E & H); [lia|].
  exists ws', k. split; [exact E|]. rewrite Z.add_0_r in H. exact H.
Qed.

Lemma add_mul_word_spec ws mult rhs : wf ws -> wf rhs -> (length rhs <= length ws)%nat ->
  0 <= mult < B ->
  exists ws' k, add_mul_word_in_place ws mult rhs = Ok (ws', k) /\
    upd_post ws ws' (mult * val rhs) k /\ 0 <= k < B.
Proof.
  intros Hw Hr L Hm. unfold add_mul_word_in_place. pose proof B_ge as HB.
  rewrite check_true by (apply Nat.leb_le; auto).
  destruct (on_window_spec (fun k : Z => k) 0 (length rhs) ws
    (fun w => add_mul_word_same_len_in_place w mult rhs) (mult * val rhs) (fun k => 0 <= k < B))
    as (ws1 & k1 & -> & (L1 & W1 & V1) & R1); auto; [lia| |].
  { intros w Ww Lw. apply add_mul_word_same_len_spec; auto. lia. }
  cbn [bind]. rewrite Bn_0 in V1. destruct (Nat.ltb_spec (length rhs) (length ws1)).
  - destruct (on_window_spec Z.b2z (length rhs) (length ws1) ws1
      (fun w => add_word_in_place w k1) k1 (fun _ => True)) as (ws2 & o & -> & (L2 & W2 & V2) & _); auto; [lia| |].
    { intros w Ww Lw. destruct (add_word_spec w k1) as (w' & o & E & H2); auto; [lia|].
      exists w', o. auto. }
    cbn [bind]. do 2 eexists; split; [reflexivity|]. unfold upd_post. rewrite L2, L1 in *.
    repeat split; auto; try lia; destruct o; cbn; lia.
  - do 2 eexists; split; [reflexivity|]. unfold upd_post. rewrite L1 in *.
    replace (length rhs) with (length ws) in V1 by lia. repeat split; auto; lia.
Qed.

Lemma sub_mul_word_loop_spec ws mult : forall rhs cpm, wf ws -> wf rhs -> length ws = length rhs ->
  0 <= mult < B -> 0 <= cpm < B ->
  exists ws' k, sub_mul_word_loop ws mult rhs cpm = Ok (ws', k) /\
    upd_post ws ws' (cpm - (B - 1) - mult * val rhs) (k - (B - 1)) /\ 0 <= k < B.
Proof.
  unfold upd_post. pose proof B_ge as HB.
  induction ws as [|a t IH]; intros [|b r] cpm Hw Hr L Hm Hc; simpl in L; try discriminate;
    cbn [sub_mul_word_loop].
  - do 2 eexists; split; [reflexivity|]. simpl. rewrite Bn_0. repeat split; auto using wf_nil; lia.
  - apply wf_cons in Hw as [Hw Ht]. apply wf_cons in Hr as [Hb Hr]. unfold extend_word.
    mle B 3 B. rewrite double_word_val by lia.
    rewrite dword_chk_ok by lia. cbn [bind].
    rewrite dword_chk_ok by lia. cbn [bind].
    rewrite dword_chk_ok by lia. cbn [bind].
    rewrite dword_chk_ok by (apply mul_range; lia). cbn [bind].
    mnn mult b. mle mult b (B - 1). mle (B - 1) mult (B - 1).
    rewrite dword_chk_ok by lia. cbn [bind].
    match goal with |- context [split_double_word ?x] => destruct (split_double_word x) as [lo hi] eqn:E end.
    apply split_double_word_val in E as (V & Rl & Rh); [|lia].
    destruct (IH r hi Ht Hr ltac:(lia) Hm Rh) as (t' & k & -> & (L2 & W & V2) & Rk). cbn [bind].
    do 2 eexists; split; [reflexivity|]. simpl length. rewrite wf_cons, L2, Bn_S, !val_cons.
    mulB V2. repeat split; auto; lia.
Qed.

Lemma sub_mul_word_same_len_spec ws mult rhs : wf ws -> wf rhs -> length ws = length rhs ->
  0 <= mult < B ->
  exists ws' k, sub_mul_word_same_len_in_place ws mult rhs = Ok (ws', k) /\
    upd_post ws ws' (- (mult * val rhs)) (- k) /\ 0 <= k < B.
Proof.
  intros Hw Hr L Hm. unfold sub_mul_word_same_len_in_place. pose proof B_ge as HB.
  rewrite check_true by (apply Nat.eqb_eq; auto).
  destruct (sub_mul_word_loop_spec ws mult rhs (B - 1) Hw Hr L Hm) as (ws' & k & -> & (L2 & W & V) & R); [lia|].
  cbn [bind]. rewrite word_chk_ok by lia. cbn [bind].
  do 2 eexists; split; [reflexivity|]. unfold upd_post. repeat split; auto; lia.
Qed.

(** Schoolbook multiplication. *)
Lemma add_mul_chunk_loop_spec a : wf a -> forall b c carry, wf b -> wf c ->
  length c = (length a + length b)%nat ->
  exists c' o, add_mul_chunk_loop c a b carry = Ok (c', o) /\
    upd_post c c' (val a * val b + Bn (length a) * Z.b2z carry) (Z.b2z o).
Proof.
  intros Ha. pose proof B_ge as HB. unfold upd_post.
  induction b as [|m b IH]; intros c carry Hb Hc L; cbn [add_mul_chunk_loop].
  - do 2 eexists; split; [reflexivity|]. simpl in *. rewrite L, Nat.add_0_r.
    repeat split; auto; lia.
  - apply wf_cons in Hb as [Hm Hb]. simpl in L.
    rewrite split_at_Ok by lia. cbn [bind].
    destruct (list_split (length a) c ltac:(lia)) as (lo & hi & -> & L1 & L2 & -> & ->).
    apply wf_app in Hc as [Wlo Whi]. rewrite app_length in *.
    destruct (add_mul_word_same_len_spec lo m a Wlo Ha L1 Hm) as (lo' & k & -> & (L3 & W3 & V3) & Rk).
    cbn [bind]. destruct hi as [|x rest]; [simpl in *; lia|].
    apply wf_cons in Whi as [Wx Wr].
    pose proof (add_with_carry_spec x k carry Wx Rk) as S.
    destruct (add_with_carry x k carry) as [w cn]. destruct S as [V4 R4].
    destruct (lo' ++ w :: rest) as [|c0 c1] eqn:Ec; [destruct lo'; discriminate|].
    assert (wf (c0 :: c1)) as Wc by (rewrite <- Ec; apply wf_app; split; [auto|]; apply wf_cons; auto).
    apply wf_cons in Wc as [W0 W1].
    assert (length (c0 :: c1) = (length a + length b + 1)%nat) as Lc
      by (rewrite <- Ec, app_length; simpl in *; lia).
    assert (val (c0 :: c1) = val lo' + Bn (length a) * (w + B * val rest)) as Vc
      by (rewrite <- Ec, val_app, val_cons, L3, L1; reflexivity).
    destruct (IH c1 cn Hb W1 ltac:(simpl in Lc; lia)) as (c1' & o & -> & L5 & W5 & V5). cbn [bind].
    do 2 eexists; split; [reflexivity|].
    rewrite val_app, !val_cons in *. simpl length in *. rewrite wf_cons, L5.
    replace (length lo + S (length rest))%nat with (S (length c1)) by lia.
    rewrite Bn_S. mulB V5. rewrite L1 in *. rewrite L in *. clear Ec.
    apply (f_equal (Z.mul (Bn (length a)))) in V4.
    repeat split; auto; try lia.
Qed.

Lemma sub_mul_chunk_loop_spec a : wf a -> forall b c carry, wf b -> wf c ->
  length c = (length a + length b)%nat ->
  exists c' o, sub_mul_chunk_loop c a b carry = Ok (c', o) /\
    upd_post c c' (- (val a * val b) - Bn (length a) * Z.b2z carry) (- Z.b2z o).
Proof.
  intros Ha. pose proof B_ge as HB. unfold upd_post.
  induction b as [|m b IH]; intros c carry Hb Hc L; cbn [sub_mul_chunk_loop].
  - do 2 eexists; split; [reflexivity|]. simpl in *. rewrite L, Nat.add_0_r.
    repeat split; auto; lia.
  - apply wf_cons in Hb as [Hm Hb]. simpl in L.
    rewrite split_at_Ok by lia. cbn [bind].
    destruct (list_split (length a) c ltac:(lia)) as (lo & hi & -> & L1 & L2 & -> & ->).
    apply wf_app in Hc as [Wlo Whi]. rewrite app_length in *.
    destruct (sub_mul_word_same_len_spec lo m a Wlo Ha L1 Hm) as (lo' & k & -> & (L3 & W3 & V3) & Rk).
    cbn [bind]. destruct hi as [|x rest]; [simpl in *; lia|].
    apply wf_cons in Whi as [Wx Wr].
    pose proof (sub_with_borrow_spec x k carry Wx Rk) as S.
    destruct (sub_with_borrow x k carry) as [w cn]. destruct S as [V4 R4].
    destruct (lo' ++ w :: rest) as [|c0 c1] eqn:Ec; [destruct lo'; discriminate|].
    assert (wf (c0 :: c1)) as Wc by (rewrite <- Ec; apply wf_app; split; [auto|]; apply wf_cons; auto).
    apply wf_cons in Wc as [W0 W1].
    assert (length (c0 :: c1) = (length a + length b + 1)%nat) as Lc
      by (rewrite <- Ec, app_length; simpl in *; lia).
    assert (val (c0 :: c1) = val lo' + Bn (length a) * (w + B * val rest)) as Vc
      by (rewrite <- Ec, val_app, val_cons, L3, L1; reflexivity).
    destruct (IH c1 cn Hb W1 ltac:(simpl in Lc; lia)) as (c1' & o & -> & L5 & W5 & V5). cbn [bind].
    do 2 eexists; split; [reflexivity|].
    rewrite val_app, !val_cons in *. simpl length in *. rewrite wf_cons, L5.
    replace (length lo + S (length rest))%nat with (S (length c1)) by lia.
    rewrite Bn_S. mulB V5. rewrite L1 in *. rewrite L in *. clear Ec.
    apply (f_equal (Z.mul (Bn (length a)))) in V4.
    repeat split; auto; try lia.
Qed.

(** Contract of the multiplication routines. *)
Definition mul_post (c c' : list Z) (s : sign) (a b : list Z) (k : Z) : Prop :=
  upd_post c c' (sign_val s * (val a * val b)) k.

Lemma mul_post_carry c c' s a b k : wf c -> wf a -> wf b -> length c = (length a + length b)%nat ->
  mul_post c c' s a b k -> -1 <= k <= 1.
Proof.
  intros Hc Ha Hb L (L2 & W2 & V). apply val_bound in Hc, Ha, Hb, W2.
  rewrite L2 in W2. rewrite L in *. rewrite Bn_add in *.
  pose proof (mul_range _ _ _ _ Ha Hb) as R.
  set (X := Bn (length a) * Bn (length b)) in *. set (Y := val a * val b) in *.
  clearbody X Y. assert (0 < X) by lia.
  split.
  - apply Z.lt_succ_r. unfold Z.succ. apply mul_lt_cancel with X; [auto|]. destruct s; cbn [sign_val] in *; lia.
  - apply Z.lt_succ_r. unfold Z.succ. apply mul_lt_cancel with X; [auto|]. destruct s; cbn [sign_val] in *; lia.
Qed.

Lemma simple_chunk_spec c s a b mem : wf c -> wf a -> wf b ->
  length c = (length a + length b)%nat -> (length b <= length a)%nat -> (length a <= CHUNK_LEN)%nat ->
  exists c' k, simple_add_signed_mul_chunk c s a b mem = Ok (c', k) /\ mul_post c c' s a b k.
Proof.
  intros Hc Ha Hb L1 L2 L3. unfold simple_add_signed_mul_chunk, mul_post.
  assert (((length b <=? length a) && (length c =? length a + length b))%nat = true) as E1.
  { rewrite (proj2 (Nat.leb_le _ _) L2), (proj2 (Nat.eqb_eq _ _) L1). reflexivity. }
  assert ((length a <? 2 * CHUNK_LEN)%nat = true) as E2.
  { apply Nat.ltb_lt. unfold CHUNK_LEN in *. lia. }
  rewrite check_true by exact E1. rewrite check_true by (apply Nat.leb_le; auto).
  destruct s; cbn [sign_val].
  - unfold add_mul_chunk. rewrite check_true by exact E1. rewrite check_true by exact E2.
    destruct (add_mul_chunk_loop_spec a Ha b c false Hb Hc L1) as (c' & o & -> & L & W & V). cbn [bind].
    do 2 eexists; split; [reflexivity|]. cbn [Z.b2z] in V. unfold upd_post; repeat split; auto; lia.
  - unfold sub_mul_chunk. rewrite check_true by exact E1. rewrite check_true by exact E2.
    destruct (sub_mul_chunk_loop_spec a Ha b c false Hb Hc L1) as (c' & o & -> & L & W & V). cbn [bind].
    do 2 eexists; split; [reflexivity|]. cbn [Z.b2z] in V. unfold upd_post; repeat split; auto; lia.
Qed.

End MulWordProofs.
