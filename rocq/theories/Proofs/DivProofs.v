(** Division of slices: schoolbook (Knuth D) and divide and conquer. *)
From Verif Require Import Proofs.Basics Proofs.AddProofs Proofs.ShiftProofs Proofs.FastDivideProofs
  Proofs.DivWordProofs Proofs.MulWordProofs Proofs.MulProofs Proofs.MulFull.
From Verif Require Import Model.Add Model.Shift Model.FastDivide Model.DivWord Model.Memory Model.Mul Model.Div.

Section DivProofs.
Context {A : Arch} {AOK : ArchOk A}.

(** * Comparison *)
Lemma lex_cmp_spec a : forall b, wf a -> wf b -> length a = length b ->
  lex_cmp a b = (val (rev a) ?= val (rev b)).
Proof.
  induction a as [|x a IH]; intros [|y b] Ha Hb L; simpl in L; try discriminate.
  - cbn [lex_cmp rev val]. rewrite Z.compare_refl. reflexivity.
  - apply wf_cons in Ha as [Hx Ha]. apply wf_cons in Hb as [Hy Hb].
    cbn [lex_cmp rev]. rewrite !val_app, !val_single, !rev_length.
    assert (length a = length b) as L' by lia. rewrite L'.
    rewrite (IH b) by auto.
    pose proof (val_bound _ (wf_rev _ Ha)) as Ra. pose proof (val_bound _ (wf_rev _ Hb)) as Rb.
    rewrite rev_length in Ra, Rb. rewrite L' in Ra. set (X := Bn (length b)) in *.
    destruct (Z.compare_spec x y) as [->|H|H].
    + rewrite Z.add_comm, (Z.add_comm (val (rev b))). symmetry. apply Zplus_compare_compat_l || idtac.
      destruct (Z.compare_spec (val (rev a)) (val (rev b)));
        destruct (Z.compare_spec (X * y + val (rev a)) (X * y + val (rev b))); auto; lia.
    + symmetry. apply Z.compare_lt_iff. mle X (x + 1) y. lia.
    + symmetry. apply Z.compare_gt_iff. mle X (y + 1) x. lia.
Qed.

Lemma cmp_same_len_spec a b : wf a -> wf b -> length a = length b ->
  cmp_same_len a b = Ok (val a ?= val b).
Proof.
  intros Ha Hb L. unfold cmp_same_len. rewrite check_true by (apply Nat.eqb_eq; auto).
  rewrite lex_cmp_spec by (auto using wf_rev; rewrite !rev_length; auto).
  rewrite !rev_involutive. reflexivity.
Qed.

(** * List plumbing *)
Lemma get_app {T} n (a : list T) x b : length a = n -> get n (a ++ x :: b) = Ok x.
Proof. intros <-. unfold get. rewrite nth_error_app2, Nat.sub_diag by lia. reflexivity. Qed.

Lemma set_app {T} n (a : list T) x y b : length a = n -> set n y (a ++ x :: b) = Ok (a ++ y :: b).
Proof.
  intros <-. unfold set. rewrite (proj2 (Nat.ltb_lt _ _)) by (rewrite app_length; simpl; lia).
  f_equal. induction a as [|z a IH]; simpl; congruence.
Qed.

Lemma on_window_app {R} i j a w b (f : list Z -> res (list Z * R)) :
  length a = i -> (length a + length w = j)%nat ->
  on_window i j (a ++ w ++ b) f = ('(w', r) <- f w ;; Ok (a ++ w' ++ b, r)).
Proof.
  intros <- <-. unfold on_window.
  rewrite (proj2 (Nat.leb_le _ _)), (proj2 (Nat.leb_le _ _)) by (rewrite ?app_length; lia). cbn [andb].
  replace (length a + length w - length a)%nat with (length w) by lia.
  rewrite skipn_app, skipn_all, Nat.sub_diag. cbn [app skipn].
  rewrite firstn_app, firstn_all, Nat.sub_diag. cbn [firstn]. rewrite app_nil_r.
  rewrite firstn_app, firstn_all, Nat.sub_diag. cbn [firstn]. rewrite app_nil_r.
  rewrite app_assoc, skipn_app. rewrite (skipn_all2 (a ++ w)) by (rewrite app_length; lia).
  rewrite app_length, Nat.sub_diag. cbn [app skipn]. reflexivity.
Qed.

Lemma on_window_end {R} i j a w (f : list Z -> res (list Z * R)) :
  length a = i -> (length a + length w = j)%nat ->
  on_window i j (a ++ w) f = ('(w', r) <- f w ;; Ok (a ++ w', r)).
Proof.
  intros H1 H2. pose proof (on_window_app i j a w [] f H1 H2) as E. rewrite app_nil_r in E. rewrite E.
  destruct (f w) as [[w' r]|]; cbn [bind]; [|reflexivity]. rewrite app_nil_r. reflexivity.
Qed.

Lemma snoc_split {T} (l : list T) n : length l = S n -> exists l' x, l = l' ++ [x] /\ length l' = n.
Proof.
  intros L. destruct (exists_last (l := l)) as (l' & x & ->); [destruct l; discriminate|].
  exists l', x. rewrite app_length in L. simpl in L. split; [auto|lia].
Qed.

(** * Quotient digit estimate *)
Lemma correct_q_spec rhs0 rhs1 lhs01 lhs2 : 
  B <= 2 * rhs0 -> rhs0 < B -> 0 <= rhs1 < B -> 0 <= lhs2 < B -> 0 <= lhs01 ->
  forall fuel q r, 0 <= q < B -> 0 <= r < B -> q * rhs0 + r = lhs01 ->
    lhs01 * B + lhs2 < (q + 1) * (rhs0 * B + rhs1) -> B <= r + Z.of_nat fuel * rhs0 ->
  exists q', correct_q fuel q r rhs0 rhs1 lhs2 = Ok q' /\ 0 <= q' < B /\
    q' * (rhs0 * B + rhs1) <= lhs01 * B + lhs2 < (q' + 1) * (rhs0 * B + rhs1).
Proof.
  intros N0 U0 H1 H2 H01. pose proof B_ge as HB.
  induction fuel as [|fuel IH]; intros q r Hq Hr E U F; cbn [correct_q]; unfold extend_word;
    rewrite dword_chk_ok by (apply mul_range; lia); cbn [bind]; rewrite double_word_val by lia.
  - lia.
  - destruct (Z.ltb_spec (lhs2 + B * r) (q * rhs1)) as [C|C].
    + assert (1 <= q) as Q1.
      { destruct (Z.eq_dec q 0) as [->|]; [|lia]. mnn B r. lia. }
      rewrite word_chk_ok by lia. cbn [bind].
      assert (lhs01 * B + lhs2 < q * (rhs0 * B + rhs1)) as U'.
      { rewrite <- E. lia. }
      destruct (Z.leb_spec B (r + rhs0)) as [G|G].
      * eexists; split; [reflexivity|]. split; [lia|]. split; [|lia].
        rewrite <- E. pose proof (mul_range (q - 1) rhs1 (@B A) (@B A)) as M.
        mle B B (r + rhs0). lia.
      * apply IH; try lia.
    + eexists; split; [reflexivity|]. split; [lia|]. split; [|lia].
      rewrite <- E. lia.
Qed.

Lemma norm_bound n rhs rhs0 rest : rhs = rest ++ [rhs0] -> wf rhs -> length rhs = n -> B <= 2 * rhs0 ->
  Bn n <= 2 * val rhs.
Proof.
  intros -> W L N. rewrite app_length in L. simpl in L. rewrite val_app, val_single.
  apply wf_app in W as [W _]. apply val_nonneg in W.
  replace n with (S (length rest)) by lia. rewrite Bn_S. pose proof (Bn_pos (length rest)).
  mle (Bn (length rest)) B (2 * rhs0). lia.
Qed.

(** The divisor is normalized and [f] is the reciprocal of its top word. *)
Definition norm_div (rhs : list Z) (f : FastDivideNormalized) : Prop :=
  wf rhs /\ exists rest rhs0, rhs = rest ++ [rhs0] /\ fdn_ok f rhs0.

Lemma norm_div_bound rhs f : norm_div rhs f -> Bn (length rhs) <= 2 * val rhs < 2 * Bn (length rhs).
Proof.
  intros (W & rest & rhs0 & E & F). pose proof (val_bound _ W). split; [|lia].
  apply (norm_bound _ rhs rhs0 rest); auto. apply F.
Qed.

(** One step of the schoolbook loop. *)
Lemma simple_div_step_spec f rhs n P W lhs0 T : norm_div rhs f -> length rhs = n -> (2 <= n)%nat ->
  wf W -> 0 <= lhs0 < B -> length W = n ->
  val W + Bn n * lhs0 < val rhs * B ->
  exists W' q, simple_div_step f rhs (length P + n + 1) (P ++ W ++ lhs0 :: T) = Ok (P ++ W' ++ q :: T) /\
    wf W' /\ length W' = n /\ 0 <= q < B /\ 
    val W + Bn n * lhs0 = val W' + val rhs * q /\ val W' < val rhs.
Proof.
  intros (Wr & rest & rhs0 & Er & F) Ln Hn WW H0 LW HU. pose proof B_ge as HB.
  destruct (snoc_split rest (n - 2)) as (Rl & rhs1 & -> & LRl).
  { subst rhs. rewrite app_length in Ln. simpl in Ln. lia. }
  destruct (snoc_split W (n - 1)) as (W1 & lhs1 & -> & LW1); [lia|].
  destruct (snoc_split W1 (n - 2)) as (W2 & lhs2 & -> & LW2); [lia|].
  assert (rhs = Rl ++ rhs1 :: [rhs0]) as Er' by (rewrite Er, <- app_assoc; reflexivity).
  unfold simple_div_step. rewrite Ln.
  assert (get (n - 1) rhs = Ok rhs0) as -> by (rewrite Er; apply get_app; rewrite app_length; simpl; lia).
  assert (get (n - 2) rhs = Ok rhs1) as -> by (rewrite Er'; apply get_app; lia). cbn [bind].
  replace (length P + n + 1 - 1)%nat with (length P + n)%nat by lia.
  replace (length P + n + 1 - 2)%nat with (length P + (n - 1))%nat by lia.
  replace (length P + n + 1 - 3)%nat with (length P + (n - 2))%nat by lia.
  replace (length P + n - n)%nat with (length P) by lia.
  rewrite app_length in LW1. simpl in LW1.
  set (L := P ++ ((W2 ++ [lhs2]) ++ [lhs1]) ++ lhs0 :: T).
  assert (get (length P + n) L = Ok lhs0) as ->.
  { replace L with ((P ++ (W2 ++ [lhs2]) ++ [lhs1]) ++ lhs0 :: T) by (unfold L; rewrite <- !app_assoc; reflexivity).
    apply get_app. rewrite !app_length; simpl; lia. }
  assert (get (length P + (n - 1)) L = Ok lhs1) as ->.
  { replace L with ((P ++ (W2 ++ [lhs2])) ++ lhs1 :: lhs0 :: T) by (unfold L; rewrite <- !app_assoc; reflexivity).
    apply get_app. rewrite !app_length; simpl; lia. }
  assert (get (length P + (n - 2)) L = Ok lhs2) as ->.
  { replace L with ((P ++ W2) ++ lhs2 :: lhs1 :: lhs0 :: T) by (unfold L; rewrite <- !app_assoc; reflexivity).
    apply get_app. rewrite !app_length; simpl; lia. }
  unfold L. clear L. cbn [bind].
  pose proof WW as WW'. apply wf_app in WW' as [WW1 Wl1]. apply wf_app in WW1 as [WW2 Wl2].
  apply wf_cons in Wl1 as [H1 _]. apply wf_cons in Wl2 as [H2 _].
  pose proof Wr as Wr'. rewrite Er in Wr'. apply wf_app in Wr' as [Wr1 Wr0]. apply wf_app in Wr1 as [WRl Wr1].
  apply wf_cons in Wr1 as [Hr1 _]. apply wf_cons in Wr0 as [Hr0 _].
  destruct F as (Ff & Fr & Fn & Frest).
  assert (fdn_ok f rhs0) as Fok by (split; [exact Ff|split; [exact Fr|split; [exact Fn|exact Frest]]]).
  set (Y := Bn (n - 2)). assert (0 < Y) as HY by apply Bn_pos.
  assert (Bn n = B * B * Y) as BnE.
  { unfold Y. rewrite <- Bn_1 at 1 2. rewrite <- !Bn_add. f_equal. lia. }
  assert (val rhs = val Rl + Y * (rhs0 * B + rhs1)) as Vr.
  { rewrite Er'. rewrite val_app. cbn [val]. rewrite LRl. fold Y. lia. }
  set (U := val ((W2 ++ [lhs2]) ++ [lhs1]) + Bn n * lhs0) in *.
  assert (U = val W2 + Y * ((lhs1 + B * lhs0) * B + lhs2)) as VU.
  { unfold U. rewrite <- app_assoc. cbn [app]. rewrite val_app. cbn [val]. rewrite LW2, BnE. fold Y. lia. }
  pose proof (val_bound _ WRl) as BRl. rewrite LRl in BRl. fold Y in BRl.
  pose proof (val_bound _ WW2) as BW2. rewrite LW2 in BW2. fold Y in BW2.
  assert (exists q, (if lhs0 <? rhs0
       then '(q, r) <- fdn_div_rem f (double_word lhs1 lhs0);; correct_q 2 q r rhs0 rhs1 lhs2
       else Ok (B - 1)) = Ok q /\ 0 <= q < B /\ (q - 1) * val rhs <= U < (q + 1) * val rhs)
    as (q & -> & Hq & EQ1 & EQ2).
  { destruct (Z.ltb_spec lhs0 rhs0) as [C|C].
    - rewrite double_word_val by lia.
      assert (lhs1 + B * lhs0 < rhs0 * B) as HD by (mle B (lhs0 + 1) rhs0; lia).
      assert (0 <= B * lhs0) as HD0 by (apply Z.mul_nonneg_nonneg; lia).
      rewrite (fdn_div_rem_spec f rhs0) by (auto; lia). cbn [bind].
      set (D := lhs1 + B * lhs0) in *. assert (0 <= D) as HDp by (unfold D; lia). clearbody D.
      pose proof (Z.div_mod D rhs0 ltac:(lia)) as DM. pose proof (Z.mod_pos_bound D rhs0 ltac:(lia)) as RM.
      assert (0 <= D / rhs0) by (apply Z.div_pos; lia).
      assert (D / rhs0 < B) by (apply Z.div_lt_upper_bound; lia).
      set (q0 := D / rhs0) in *. set (r0 := D mod rhs0) in *. clearbody q0 r0.
      destruct (correct_q_spec rhs0 rhs1 D lhs2) with (fuel := 2%nat) (q := q0) (r := r0)
        as (q & Eq & Hq & Q1 & Q2); try lia.
      { mle B (D + 1) ((q0 + 1) * rhs0). mnn (q0 + 1) rhs1. lia. }
      exists q. split; [exact Eq|]. split; [exact Hq|].
      set (X := D * B + lhs2) in *. set (Z0 := rhs0 * B + rhs1) in *.
      rewrite Vr, VU.
      assert (B <= Z0) as HZ by (unfold Z0; mle B 1 rhs0; lia).
      split.
      + mle Y ((q - 1) * (Z0 + 1)) X. 
        destruct (Z.eq_dec q 0) as [->|].
        * mnn Y Z0. mnn Y X. lia.
        * mle (q - 1) (val Rl) Y. lia.
      + mle Y (X + 1) ((q + 1) * Z0). mnn (q + 1) (val Rl). lia.
    - exists (B - 1). split; [reflexivity|]. split; [lia|]. replace (B - 1 + 1) with B by lia.
      split; [|lia].
      rewrite Vr, VU.
      assert (val Rl + Y * (rhs0 * B + rhs1) < Y * (rhs0 * B + B)) as T1.
      { mle Y (rhs1 + 1) B. lia. }
      mle (B - 2) (val Rl + Y * (rhs0 * B + rhs1)) (Y * (rhs0 * B + B)).
      assert ((B - 2) * (rhs0 * B + B) <= rhs0 * B * B) as T2.
      { mle B B (2 * rhs0 + 2). lia. }
      mle Y ((B - 2) * (rhs0 * B + B)) (rhs0 * B * B).
      mle (Y * B * B) rhs0 lhs0.
      mnn Y lhs1. mnn (Y * lhs1) B. mnn Y lhs2. lia. }
  clear VU Vr BnE. cbn [bind].
  rewrite on_window_app by lia.
  set (W := (W2 ++ [lhs2]) ++ [lhs1]) in *. clearbody W.
  destruct (sub_mul_word_same_len_spec W q rhs) as (W' & bo & -> & (LW' & WW' & VW') & Rb); auto; [lia|].
  cbn [bind]. rewrite LW in *. pose proof (val_bound _ WW') as BW'. rewrite LW' in BW'.
  pose proof (val_bound _ Wr) as BR. rewrite Ln in BR.
  assert (U - q * val rhs = val W' + Bn n * (lhs0 - bo)) as EU by (unfold U; lia).
  pose proof (Bn_pos n) as PB.
  destruct (Z.ltb_spec lhs0 bo) as [C|C].
  - (* q is too large by one *)
    assert (val W' + Bn n * (lhs0 - bo) < 0) as Neg by (mle (Bn n) (lhs0 - bo) (-1); lia).
    assert (1 <= q) as Q1.
    { destruct (Z.eq_dec q 0) as [->|]; [|lia]. apply val_nonneg in WW. mnn (Bn n) lhs0. lia. }
    rewrite word_chk_ok by lia. cbn [bind]. rewrite on_window_app by lia.
    destruct (add_same_len_spec W' rhs) as (W'' & o & -> & (LW'' & WW'' & VW'')); auto; [lia|].
    cbn [bind]. rewrite LW' in *. pose proof (val_bound _ WW'') as BW''. rewrite LW'' in BW''.
    assert (val W'' + Bn n * (Z.b2z o + lhs0 - bo) = U - (q - 1) * val rhs) as E2 by lia.
    destruct (decomp (val W'') (Z.b2z o + lhs0 - bo) (U - (q - 1) * val rhs) 0 (Bn n)) as [D1 D2]; [lia|lia|lia|].
    assert (o = true /\ bo = lhs0 + 1) as [-> ->] by (destruct o; cbn [Z.b2z] in *; lia).
    rewrite check_true by reflexivity. rewrite word_chk_ok by lia. cbn [bind].
    rewrite check_true by lia.
    rewrite app_assoc, (set_app (length P + n)) by (rewrite app_length; lia). rewrite <- app_assoc.
    exists W'', (q - 1). split; [reflexivity|]. repeat split; auto; lia.
  - assert (0 <= U - q * val rhs) as Pos by (mnn (Bn n) (lhs0 - bo); lia).
    destruct (decomp (val W') (lhs0 - bo) (U - q * val rhs) 0 (Bn n)) as [D1 D2]; [lia|lia|lia|].
    cbn [bind]. rewrite check_true by lia.
    rewrite app_assoc, (set_app (length P + n)) by (rewrite app_length; lia). rewrite <- app_assoc.
    exists W', q. split; [reflexivity|]. repeat split; auto; lia.
Qed.

Lemma simple_div_loop_spec f rhs n : norm_div rhs f -> length rhs = n -> (2 <= n)%nat ->
  forall k P T, wf P -> length P = (n + k)%nat -> val P < val rhs * Bn k ->
  exists rem Q, simple_div_loop k f rhs (P ++ T) = Ok (rem ++ Q ++ T) /\
    wf rem /\ wf Q /\ length rem = n /\ length Q = k /\
    val P = val rem + val rhs * val Q /\ val rem < val rhs.
Proof.
  intros Hr Ln Hn. induction k as [|k IH]; intros P T WP LP HV; cbn [simple_div_loop].
  - exists P, []. cbn [app val length]. rewrite Bn_0 in HV. repeat split; auto using wf_nil; lia.
  - destruct (snoc_split P (n + k)) as (P0 & lhs0 & -> & LP0); [lia|].
    apply wf_app in WP as [WP0 W0]. apply wf_cons in W0 as [W0 _].
    destruct (list_split k P0 ltac:(lia)) as (P1 & W & -> & LP1 & _ & _ & _).
    rewrite app_length in LP0. apply wf_app in WP0 as [WP1 WW].
    rewrite !val_app, val_single, app_length in HV. rewrite LP1 in HV.
    replace (length rhs + S k)%nat with (length P1 + n + 1)%nat by lia.
    replace (((P1 ++ W) ++ [lhs0]) ++ T) with (P1 ++ W ++ lhs0 :: T) by (rewrite <- !app_assoc; reflexivity).
    assert (length W = n) as LW by lia. rewrite LW in HV.
    pose proof (val_nonneg _ WP1) as NP1. pose proof (Bn_pos k) as PBk.
    assert (val W + Bn n * lhs0 < val rhs * B) as HU.
    { apply mul_lt_cancel with (Bn k); [auto|]. rewrite Bn_S in HV.
      replace (Bn (k + n)) with (Bn k * Bn n) in HV by (rewrite Bn_add; ring). lia. }
    destruct (simple_div_step_spec f rhs n P1 W lhs0 T) as (W' & q & -> & WW' & LW' & Hq & EU & LR); auto.
    cbn [bind]. rewrite app_assoc.
    destruct (IH (P1 ++ W') (q :: T)) as (rem & Q & -> & Wrem & WQ & Lrem & LQ & EV & LV).
    + apply wf_app; auto.
    + rewrite app_length; lia.
    + rewrite val_app, LP1. pose proof (val_bound _ WP1) as BP1. rewrite LP1 in BP1.
      mle (Bn k) (val W' + 1) (val rhs). lia.
    + exists rem, (Q ++ [q]). split; [rewrite <- app_assoc; reflexivity|].
      split; [auto|]. split; [apply wf_snoc; auto|]. split; [auto|].
      split; [rewrite app_length; simpl; lia|]. split; [|auto].
      rewrite !val_app, !val_single, app_length, LP1, LQ, LW. rewrite val_app, LP1 in EV.
      replace (Bn (k + n)) with (Bn k * Bn n) by (rewrite Bn_add; ring).
      assert (Bn k * (val W + Bn n * lhs0) = Bn k * (val W' + val rhs * q)) by (rewrite EU; reflexivity). lia.
Qed.

(** Contract of the in-place division: the low words hold the remainder, the
    high ones the quotient, the returned flag is its extra top bit. *)
Definition div_post (lhs rhs lhs' : list Z) (o : bool) : Prop :=
  exists rem Q, lhs' = rem ++ Q /\ wf rem /\ wf Q /\ length rem = length rhs /\
    length Q = (length lhs - length rhs)%nat /\
    val lhs = val rem + val rhs * (val Q + Bn (length Q) * Z.b2z o) /\ val rem < val rhs.

Lemma simple_div_spec lhs rhs f : norm_div rhs f -> (2 <= length rhs)%nat -> wf lhs ->
  (length rhs <= length lhs)%nat ->
  exists lhs' o, simple_div_rem_in_place lhs rhs f = Ok (lhs', o) /\ div_post lhs rhs lhs' o.
Proof.
  intros Hr Hn Wl L. pose proof (norm_div_bound _ _ Hr) as HN. pose proof Hr as [Wr _].
  unfold simple_div_rem_in_place. rewrite check_true by (apply Nat.leb_le; auto).
  rewrite check_true by (apply Nat.leb_le; auto).
  set (n := length rhs) in *.
  assert (exists k, length lhs - n = k)%nat as (k & Ek) by eauto. rewrite Ek.
  destruct (list_split k lhs ltac:(lia)) as (P & W & -> & LP & _ & _ & _).
  rewrite app_length in *. apply wf_app in Wl as [WP WW].
  assert (length W = n) as LW by lia.
  rewrite slice_from_Ok by (rewrite app_length; lia). cbn [bind].
  rewrite skipn_app, LP, Nat.sub_diag, skipn_all2 by lia. cbn [app skipn].
  rewrite cmp_same_len_spec by auto. cbn [bind].
  pose proof (val_bound _ WW) as BW. rewrite LW in BW. pose proof (Bn_pos k) as PBk.
  pose proof (val_bound _ WP) as BP. rewrite LP in BP.
  assert (exists W' o, (match (val W ?= val rhs) with Lt => false | _ => true end) = o /\
     (if o then '(lhs0, overflow) <- on_window k (k + length W) (P ++ W)
               (fun w => sub_same_len_in_place w rhs) ;; check (negb overflow) ;; Ok lhs0
          else Ok (P ++ W)) = Ok (P ++ W') /\ wf W' /\ length W' = n /\
     val W = val W' + val rhs * Z.b2z o /\ val W' < val rhs) as (W' & o & -> & E2 & WW' & LW' & V & LT).
  { destruct (Z.compare_spec (val W) (val rhs)) as [C|C|C].
    2:{ exists W, false. cbn [Z.b2z]. repeat split; auto; lia. }
    all: exists (let (w, _) := sub_loop W rhs false in w), true; split; [reflexivity|].
    all: destruct (sub_same_len_spec W rhs) as (W' & o & E & (LW' & WW' & VW')); auto.
    all: pose proof (val_bound _ WW') as BW'; rewrite LW', LW in BW'; rewrite LW in VW'.
    all: assert (o = false) as -> by (destruct o; [cbn [Z.b2z] in VW'; lia|reflexivity]).
    all: cbn [Z.b2z] in *.
    all: unfold sub_same_len_in_place in E; rewrite check_true in E by (apply Nat.eqb_eq; auto).
    all: assert (sub_loop W rhs false = (W', false)) as E' by congruence; rewrite E'; cbv zeta.
    all: rewrite on_window_end by lia.
    all: unfold sub_same_len_in_place; rewrite check_true by (apply Nat.eqb_eq; auto).
    all: rewrite E'; cbn [bind negb]; rewrite check_true by reflexivity.
    all: repeat split; auto; lia. }
  rewrite E2. cbn [bind]. clear E2.
  destruct (simple_div_loop_spec f rhs n Hr eq_refl Hn k (P ++ W') []) as (rem & Q & E & Wrem & WQ & Lrem & LQ & EV & LV).
  - apply wf_app; auto.
  - rewrite app_length; lia.
  - rewrite val_app, LP. mle (Bn k) (val W' + 1) (val rhs). lia.
  - rewrite !app_nil_r in E. rewrite E. cbn [bind]. do 2 eexists; split; [reflexivity|].
    exists rem, Q. split; [reflexivity|]. split; [auto|]. split; [auto|]. split; [auto|].
    split; [rewrite app_length; lia|]. split; [|auto]. rewrite val_app, LP, LQ in *.
    assert (Bn k * val W = Bn k * (val W' + val rhs * Z.b2z o)) by (rewrite V; reflexivity). lia.
Qed.

(** * Divide and conquer *)
Definition dc_ok (f : div_fn) (n : nat) (need : Z) : Prop :=
  forall lhs rhs fd mem, norm_div rhs fd -> length rhs = n -> wf lhs -> length lhs = (2 * n)%nat -> need <= mem ->
  exists lhs' o, f lhs rhs fd mem = Ok (lhs', o) /\ div_post lhs rhs lhs' o.

Lemma adjust_loop_spec rhs (n m : nat) : wf rhs -> length rhs = n ->
  forall fuel rem q ro qo t Q, wf rem -> wf q -> length rem = n -> length q = m ->
    val rem + Bn n * ro = t -> val q + Bn m * qo = Q -> t < val rhs -> - (Z.of_nat fuel * val rhs) <= t ->
    - 10 <= ro <= 1 -> 0 <= qo <= 1 -> 0 <= t + Q * val rhs ->
  exists rem' q' ro' qo', adjust_loop fuel rem q rhs ro qo = Ok (rem', q', ro', qo') /\
    wf rem' /\ wf q' /\ length rem' = n /\ length q' = m /\ ro' = 0 /\ 0 <= qo' <= 1 /\
    0 <= val rem' < val rhs /\ val rem' + (val q' + Bn m * qo') * val rhs = t + Q * val rhs.
Proof.
  intros Wr Lr. pose proof B_ge as HB. pose proof (val_bound _ Wr) as BR. rewrite Lr in BR.
  pose proof (Bn_pos n) as Pn. pose proof (Bn_pos m) as Pm.
  induction fuel as [|fuel IH]; intros rem q ro qo t Q Wrem Wq Lrem Lq Et EQ T1 T2 Rro Rqo Tot; cbn [adjust_loop];
    pose proof (val_bound _ Wrem) as Brem; rewrite Lrem in Brem;
    pose proof (val_bound _ Wq) as Bq; rewrite Lq in Bq.
  - assert (0 <= ro) as R0.
    { apply Z.lt_succ_r. unfold Z.succ. apply mul_lt_cancel with (Bn n); [auto|]. lia. }
    rewrite (proj2 (Z.ltb_ge _ _)) by auto.
    destruct (decomp (val rem) ro t 0 (Bn n)) as [D1 D2]; [lia|lia|lia|].
    exists rem, q, ro, qo. split; [reflexivity|]. rewrite D1, EQ. repeat split; auto; lia.
  - destruct (Z.ltb_spec ro 0) as [C|C].
    + assert (t < 0) as Tneg by (mle (Bn n) ro (-1); lia).
      destruct (add_same_len_spec rem rhs) as (rem1 & o1 & -> & (L1 & W1 & V1)); auto; [lia|]. cbn [bind].
      pose proof (b2z_range o1) as Ro1.
      rewrite sword_chk_ok by lia. cbn [bind].
      pose proof (sub_one_spec q Wq) as S1. destruct (sub_one_in_place q) as [q1 o2].
      destruct S1 as (L2 & W2 & V2). pose proof (b2z_range o2) as Ro2.
      rewrite sword_chk_ok by lia. cbn [bind].
      assert (1 <= Q) as Q1.
      { destruct (Z_lt_le_dec Q 1); [|auto]. mle (val rhs) Q 0. lia. }
      pose proof (val_bound _ W2) as B2. rewrite L2, Lq in B2. rewrite Lq in V2. rewrite Lrem in V1.
      assert (0 <= qo - Z.b2z o2) as Rq2.
      { apply Z.lt_succ_r. unfold Z.succ. apply mul_lt_cancel with (Bn m); [auto|]. lia. }
      destruct (IH rem1 q1 (ro + Z.b2z o1) (qo - Z.b2z o2) (t + val rhs) (Q - 1))
        as (rem' & q' & ro' & qo' & E & H); auto; try lia.
      exists rem', q', ro', qo'. split; [exact E|]. intuition auto; lia.
    + destruct (decomp (val rem) ro t 0 (Bn n)) as [D1 D2]; [lia| |lia|].
      { mnn (Bn n) ro. lia. }
      exists rem, q, ro, qo. split; [reflexivity|]. rewrite D1, EQ. repeat split; auto; lia.
Qed.

Lemma norm_div_skip rhs f k : norm_div rhs f -> (k < length rhs)%nat -> norm_div (skipn k rhs) f.
Proof.
  intros (W & rest & rhs0 & E & F) L. split; [apply wf_skipn; auto|].
  exists (skipn k rest), rhs0. split; [|auto]. rewrite E, skipn_app.
  rewrite E, app_length in L. simpl in L. replace (k - length rest)%nat with 0%nat by lia. reflexivity.
Qed.

Lemma small_quotient_spec depth same n m mem : (2 <= n)%nat -> (m < n)%nat ->
  ((32 < m)%nat -> gdeep depth m (n - m)) ->
  ((32 < m)%nat -> dc_ok same m (mul_memory (m / 2))) ->
  mul_memory (Nat.min (n / 2) m) <= mem ->
  forall lhs rhs f, norm_div rhs f -> length rhs = n -> wf lhs -> length lhs = (n + m)%nat ->
  exists lhs' o, div_small_quotient (add_signed_mul_fuel depth) same lhs rhs f mem = Ok (lhs', o) /\ div_post lhs rhs lhs' o.
Proof.
  intros Hn Hm Hd Hs Hmem lhs rhs f Hr Lr Wl Ll. pose proof B_ge as HB.
  pose proof (norm_div_bound _ _ Hr) as HN. pose proof Hr as [Wr _].
  unfold div_small_quotient. rewrite Lr, Ll.
  rewrite check_true by (rewrite (proj2 (Nat.leb_le _ _)), (proj2 (Nat.leb_le _ _)) by lia; reflexivity).
  replace (n + m - n)%nat with m by lia. rewrite check_true by (apply Nat.ltb_lt; auto).
  change DIV_MAX_LEN_SIMPLE with 32%nat. destruct (Nat.leb_spec m 32) as [C|C].
  { apply simple_div_spec; auto; lia. }
  specialize (Hs C). specialize (Hd C).
  pose proof (Nat.div_mod n 2 ltac:(lia)) as Dn. pose proof (Nat.mod_upper_bound n 2 ltac:(lia)) as Dn'.
  pose proof (Nat.div_mod m 2 ltac:(lia)) as Dm. pose proof (Nat.mod_upper_bound m 2 ltac:(lia)) as Dm'.
  assert (mul_memory (m / 2) <= mem) as M1.
  { apply Z.le_trans with (mul_memory (Nat.min (n / 2) m)); [apply mul_memory_mono; lia|auto]. }
  assert (mul_memory (Nat.min m (n - m)) <= mem) as M2.
  { apply Z.le_trans with (mul_memory (Nat.min (n / 2) m)); [apply mul_memory_mono; lia|auto]. }
  clear Dn Dn' Dm Dm' Hmem.
  assert (exists d, n = m + d /\ 1 <= d)%nat as (d & En & Hd1) by (exists (n - m)%nat; lia).
  replace (n - m)%nat with d in * by lia.
  rewrite slice_from_Ok by lia. cbn [bind].
  destruct (list_split d lhs ltac:(lia)) as (Ll0 & Lh & -> & LLl & _ & _ & _).
  rewrite app_length in Ll. apply wf_app in Wl as [WLl WLh].
  assert (length Lh = 2 * m)%nat as LLh by lia.
  rewrite on_window_end by (rewrite ?app_length; lia).
  destruct (list_split d rhs ltac:(lia)) as (Rl & Rh & ER & LRl & _ & EF & ES).
  assert (norm_div Rh f) as HRh by (rewrite <- ES; apply norm_div_skip; auto; lia).
  rewrite ES. 
  assert (length Rh = m) as LRh by (rewrite ER, app_length in Lr; lia).
  destruct (Hs Lh Rh f mem) as (Lh' & qo & -> & (rh & q & -> & Wrh & Wq & Lrh & Lq & VLh & Lt)); auto.
  cbn [bind]. rewrite LLh, LRh in Lq. replace (2 * m - m)%nat with m in Lq by lia.
  rewrite app_assoc. rewrite split_at_app by (rewrite app_length; lia). cbn [bind].
  rewrite slice_to_Ok by lia. cbn [bind]. rewrite EF.
  assert (wf Rl) as WRl by (rewrite ER in Wr; apply wf_app in Wr; tauto).
  assert (wf (Ll0 ++ rh)) as Wrem by (apply wf_app; auto).
  assert (length (Ll0 ++ rh) = n) as Lrem by (rewrite app_length; lia).
  destruct (add_signed_mul_fuel_spec depth m d mem Hd M2 (Ll0 ++ rh) Negative q Rl) as (rem1 & k1 & -> & MP); auto.
  { rewrite Lrem. lia. }
  assert (-1 <= k1 <= 1) as Rk1.
  { apply (mul_post_carry (Ll0 ++ rh) rem1 Negative q Rl); auto. rewrite Lrem, Lq, LRl. lia. }
  destruct MP as (Lrem1 & Wrem1 & V1). cbn [bind]. cbn [sign_val] in V1. rewrite Lrem in *.
  set (Qv := val q + Bn m * Z.b2z qo).
  set (T := val (Ll0 ++ rh) - Qv * val Rl).
  rewrite Lq in VLh. fold Qv in VLh.
  pose proof (b2z_range qo) as Rqo.
  assert (Bn n = Bn m * Bn d) as EBn by (rewrite En, Bn_add; ring).
  assert (exists rem2 k2, (if negb (Z.b2z qo =? 0) then
          '(rem, o) <- on_window m (length rem1) rem1 (fun w => sub_same_len_in_place w Rl) ;;
          rem_overflow <- sword_chk (k1 - Z.b2z o) ;;
          Ok (rem, rem_overflow)
        else Ok (rem1, k1)) = Ok (rem2, k2) /\ wf rem2 /\ length rem2 = n /\ -2 <= k2 <= 1 /\
        val rem2 + Bn n * k2 = T) as (rem2 & k2 & -> & Wrem2 & Lrem2 & Rk2 & V2).
  { destruct (Z.eqb_spec (Z.b2z qo) 0) as [E0|E0]; cbn [negb].
    - exists rem1, k1. split; [reflexivity|]. split; [auto|]. split; [auto|]. split; [lia|]. unfold T, Qv. rewrite E0. lia.
    - destruct (on_window_spec (fun o => - Z.b2z o) m (length rem1) rem1 (fun w => sub_same_len_in_place w Rl)
        (- val Rl) (fun _ => True)) as (rem2 & o & -> & (L2 & W2 & V2) & _); auto; try lia.
      { intros w Ww Lw. destruct (sub_same_len_spec w Rl) as (w' & o & E & U); auto; [lia|].
        exists w', o. auto. }
      cbn [bind]. pose proof (b2z_range o) as Ro. rewrite sword_chk_ok by lia. cbn [bind].
      exists rem2, (k1 - Z.b2z o). split; [reflexivity|]. split; [auto|]. split; [lia|]. split; [lia|].
      assert (Z.b2z qo = 1) as E1 by lia. unfold T, Qv. rewrite E1. rewrite Lrem1 in V2. lia. }
  cbn [bind].
  (* bounds on T *)
  pose proof (val_bound _ WRl) as BRl. rewrite LRl in BRl.
  pose proof (val_bound _ WLl) as BLl. rewrite LLl in BLl.
  pose proof (val_bound _ WLh) as BLh. rewrite LLh in BLh.
  pose proof (val_bound _ Wrh) as Brh.
  pose proof (norm_div_bound _ _ HRh) as HNh. rewrite LRh in HNh.
  assert (val rhs = val Rl + Bn d * val Rh) as VR by (rewrite ER, val_app, LRl; reflexivity).
  pose proof (Bn_pos m) as Pm. pose proof (Bn_pos d) as Pd.
  pose proof (val_bound _ Wq) as Bq. rewrite Lq in Bq.
  assert (0 <= Qv) as HQ by (unfold Qv; mnn (Bn m) (Z.b2z qo); lia).
  assert (val (Ll0 ++ rh) = val Ll0 + Bn d * val rh) as Vrem by (rewrite val_app, LLl; reflexivity).
  rewrite Lr in HN.
  assert (T < val rhs) as T1.
  { unfold T. rewrite Vrem, VR. mle (Bn d) (val rh + 1) (val Rh). mnn Qv (val Rl). lia. }
  assert (Qv < 2 * Bn m) as Q2.
  { apply mul_lt_cancel with (val Rh); [lia|].
    replace (Bn (2 * m)) with (Bn m * Bn m) in BLh by (rewrite <- Bn_add; f_equal; lia).
    mle (Bn m) (Bn m) (2 * val Rh). lia. }
  assert (- (Z.of_nat 4 * val rhs) <= T) as T2.
  { unfold T. rewrite Vrem. mnn (Bn d) (val rh). change (Z.of_nat 4) with 4.
    mle Qv (val Rl) (Bn d). mle (Bn d) Qv (2 * Bn m). lia. }
  assert (0 <= T + Qv * val rhs) as T3.
  { unfold T. rewrite Vrem, VR. mnn (Bn d) (val rh). mnn (Qv * Bn d) (val Rh). lia. }
  destruct (adjust_loop_spec rhs n m Wr Lr 4 rem2 q k2 (Z.b2z qo) T Qv) as
    (rem' & q' & ro' & qo' & -> & W' & Wq' & L' & Lq' & -> & Rq' & Rr' & EV); auto; try lia.
  cbn [bind]. rewrite check_true by lia.
  do 2 eexists; split; [reflexivity|].
  exists rem', q'. split; [reflexivity|]. split; [auto|]. split; [auto|]. split; [lia|].
  split; [rewrite app_length; lia|]. split; [|lia].
  rewrite Lq'. replace (Z.b2z (negb (qo' =? 0))) with qo'.
  2:{ destruct (Z.eqb_spec qo' 0); cbn [negb Z.b2z]; lia. }
  rewrite val_app, LLl. clear V1 V2 T1 T2 T3 Q2. unfold T in EV. rewrite Vrem in EV.
  assert (Bn d * val Lh = Bn d * (val rh + val Rh * Qv)) as EM by (rewrite VLh; reflexivity).
  rewrite VR in *. lia.
Qed.

Lemma div_post_wf lhs rhs lhs' o : div_post lhs rhs lhs' o -> (length rhs <= length lhs)%nat ->
  wf lhs' /\ length lhs' = length lhs.
Proof.
  intros (rem & Q & -> & W1 & W2 & L1 & L2 & _) L. split; [apply wf_app; auto|]. rewrite app_length. lia.
Qed.

(** Reducing the extra bit: a quotient that fits has none. *)
Lemma div_post_nocarry lhs rhs lhs' o : wf lhs -> div_post lhs rhs lhs' o ->
  val lhs < val rhs * Bn (length lhs - length rhs) -> o = false.
Proof.
  intros Wl (rem & Q & -> & W1 & W2 & L1 & L2 & V & Lt) H. destruct o; [|reflexivity]. exfalso.
  apply val_nonneg in W1, W2. rewrite L2 in V. cbn [Z.b2z] in V.
  assert (0 <= val rhs) by lia. mnn (val rhs) (val Q). lia.
Qed.

(** Nested calls: [2 k + 3] of them are enough for divisors of up to
    [32 * 2^k] words. *)
Definition ddeep (fuel n : nat) : Prop :=
  exists k, Z.of_nat n <= 32 * 2 ^ Z.of_nat k /\ (2 * k + 3 <= fuel)%nat.

Lemma ddeep_mul fuel n m : ddeep (S fuel) n -> (32 < n)%nat -> (m <= n)%nat -> gdeep fuel m (n - m).
Proof.
  intros (k & H & K) Hn Hm. right. exists k. split; [|left; lia].
  pose proof (Z.pow_pos_nonneg 2 (Z.of_nat k) ltac:(lia) ltac:(lia)). lia.
Qed.

Lemma ddeep_half fuel n m : ddeep (S fuel) n -> (32 < n)%nat -> (2 * m <= n + 1)%nat -> ddeep fuel m.
Proof.
  intros (k & H & K) Hn Hm. destruct k as [|k].
  - change (2 ^ Z.of_nat 0) with 1 in H. lia.
  - exists k. rewrite Nat2Z.inj_succ, Z.pow_succ_r in H by lia. lia.
Qed.

Lemma ddeep_weaken fuel n m : ddeep fuel n -> (m <= n)%nat -> ddeep fuel m.
Proof. intros (k & H & K) Hm. exists k. lia. Qed.

Lemma ddeep_lt fuel n : (32 < n)%nat -> (n < fuel)%nat -> ddeep fuel n.
Proof.
  intros Hn Hf. pose proof (Z.log2_spec (Z.of_nat n) ltac:(lia)) as [L1 L2].
  set (l := Z.log2 (Z.of_nat n)) in *.
  assert (5 <= l) as Hl.
  { unfold l. change 5 with (Z.log2 32). apply Z.log2_le_mono. lia. }
  clearbody l. exists (Z.to_nat (l - 4)).
  replace (Z.succ l) with (5 + (l - 4)) in L2 by lia. rewrite Z.pow_add_r in L2 by lia.
  change (2 ^ 5) with 32 in L2. rewrite Z2Nat.id by lia. split; [lia|].
  pose proof (Z.pow_gt_lin_r 2 (l - 1) ltac:(lia) ltac:(lia)) as L3.
  replace l with (Z.succ (l - 1)) in L1 by lia. rewrite Z.pow_succ_r in L1 by lia. lia.
Qed.

Lemma div_same_len_fuel_spec fuel : forall n, (32 < n)%nat -> ddeep fuel n ->
  dc_ok (div_same_len_fuel fuel) n (mul_memory (n / 2)).
Proof.
  induction fuel as [|fuel IH]; intros n Hn Hf lhs rhs fd mem Hr Lr Wl Ll Hm; [destruct Hf as (? & ? & ?); lia|].
  cbn [div_same_len_fuel]. rewrite Lr, Ll. change DIV_MAX_LEN_SIMPLE with 32%nat.
  rewrite check_true by (rewrite (proj2 (Nat.ltb_lt _ _)), Nat.eqb_refl by lia; reflexivity).
  pose proof (Nat.div_mod n 2 ltac:(lia)) as Dn. pose proof (Nat.mod_upper_bound n 2 ltac:(lia)) as Dn'.
  set (lo := (n / 2)%nat) in *.
  assert (exists hi, n = lo + hi /\ lo <= hi /\ hi <= lo + 1)%nat as (hi & En & H1 & H2) by (exists (n - lo)%nat; lia).
  clearbody lo. clear Dn Dn'.
  assert (forall m, (m < n)%nat -> (m <= hi)%nat -> 
    forall lhs, wf lhs -> length lhs = (n + m)%nat ->
    exists lhs' o, div_small_quotient (add_signed_mul_fuel fuel) (div_same_len_fuel fuel) lhs rhs fd mem = Ok (lhs', o) /\ div_post lhs rhs lhs' o) as SQ.
  { intros m Hm1 Hm2 l W L. apply (small_quotient_spec fuel _ n m mem); auto; [lia| | |].
    - intros _. apply ddeep_mul; auto. lia.
    - intros Hm3. apply IH; [lia|]. apply (ddeep_half fuel n); auto. lia.
    - apply Z.le_trans with (mul_memory lo); [apply mul_memory_mono|auto].
      pose proof (Nat.div_mod n 2 ltac:(lia)). pose proof (Nat.mod_upper_bound n 2 ltac:(lia)). lia. }
  destruct (list_split lo lhs ltac:(lia)) as (P & W & -> & LP & _ & _ & _).
  rewrite app_length in Ll. apply wf_app in Wl as [WP WW].
  rewrite on_window_end by (rewrite ?app_length; lia).
  destruct (SQ hi ltac:(lia) ltac:(lia) W WW ltac:(lia)) as (W' & o & -> & (rem1 & Q1 & -> & Wr1 & WQ1 & Lr1 & LQ1 & V1 & Lt1)).
  cbn [bind]. rewrite Lr in *.
  replace (P ++ rem1 ++ Q1) with ([] ++ (P ++ rem1) ++ Q1) by (rewrite <- app_assoc; reflexivity).
  rewrite (on_window_app 0 (n + lo)) by (rewrite ?app_length; simpl; lia).
  destruct (SQ lo ltac:(lia) ltac:(lia) (P ++ rem1)) as (W'' & o2 & -> & DP).
  { apply wf_app; auto. } { rewrite app_length; lia. }
  cbn [bind].
  assert (wf (P ++ rem1)) as Wpr by (apply wf_app; auto).
  pose proof (val_bound _ WP) as BP. rewrite LP in BP.
  assert (o2 = false) as ->.
  { apply (div_post_nocarry _ _ _ _ Wpr DP). rewrite app_length, Lr, LP, Lr1.
    replace (lo + n - n)%nat with lo by lia. rewrite val_app, LP. pose proof (Bn_pos lo).
    mle (Bn lo) (val rem1 + 1) (val rhs). lia. }
  rewrite check_true by reflexivity.
  destruct DP as (rem2 & Q2 & -> & Wr2 & WQ2 & Lr2 & LQ2 & V2 & Lt2).
  rewrite app_length, Lr, Lr1, LP in LQ2. replace (lo + n - n)%nat with lo in LQ2 by lia.
  do 2 eexists; split; [reflexivity|]. cbn [app].
  exists rem2, (Q2 ++ Q1). split; [rewrite <- app_assoc; reflexivity|].
  split; [auto|]. split; [apply wf_app; auto|]. split; [lia|].
  rewrite !app_length. split; [lia|]. split; [|auto].
  rewrite !val_app, LP, LQ2 in *. rewrite Bn_add. cbn [Z.b2z] in V2.
  set (X := Bn lo) in *. set (Yq := val Q1 + Bn (length Q1) * Z.b2z o) in *.
  assert (X * val W = X * (val rem1 + val rhs * Yq)) as EM by (rewrite V1; reflexivity).
  assert (X * val Q1 + X * Bn (length Q1) * Z.b2z o = X * Yq) as EY by (unfold Yq; ring).
  replace (val Q2 + X * val Q1 + X * Bn (length Q1) * Z.b2z o) with (val Q2 + X * Yq) by lia.
  clearbody Yq. lia.
Qed.

Lemma dc_loop_spec depth rhs f mem n N : norm_div rhs f -> length rhs = n -> (32 < n < N)%nat ->
  ddeep (S depth) n -> ddeep depth n ->
  forall fuel m P T o0, (m < fuel)%nat -> wf P -> length P = m -> (n <= m)%nat ->
    length (P ++ T) = N -> ((m < N)%nat -> val P < val rhs * Bn (m - n)) ->
    ((2 * n <= m)%nat -> mul_memory (n / 2) <= mem) -> 
    ((m < 2 * n)%nat -> mul_memory (Nat.min (n / 2) (m - n)) <= mem) ->
  exists rem Q o, dc_loop depth fuel (P ++ T) rhs f mem m o0 = Ok (rem ++ Q ++ T, o0 || o) /\
    wf rem /\ wf Q /\ length rem = n /\ length Q = (m - n)%nat /\
    val P = val rem + val rhs * (val Q + Bn (m - n) * Z.b2z o) /\ val rem < val rhs.
Proof.
  intros Hr Lr Hn HD HD0.
  induction fuel as [|fuel IH]; intros m P T o0 Hf WP LP Hnm LN Hlt Hm1 Hm2; [lia|].
  cbn [dc_loop]. rewrite Lr.
  destruct (Nat.leb_spec (2 * n) m) as [C|C].
  - destruct (list_split (m - 2 * n) P ltac:(lia)) as (P1 & W & -> & LP1 & _ & _ & _).
    rewrite app_length in LP. apply wf_app in WP as [WP1 WW].
    rewrite <- app_assoc. rewrite on_window_app by lia.
    destruct (div_same_len_fuel_spec depth n (proj1 Hn) HD0 W rhs f mem) as (W' & o & -> & DP); auto; [lia|].
    cbn [bind]. 
    assert (exists d, m = n + n + d)%nat as (d & Ed) by (exists (m - 2 * n)%nat; lia).
    assert (m - n = n + d)%nat as Em by lia. assert (length P1 = d) as LP1' by lia. clear LP1.
    assert (length W = 2 * n)%nat as LW by lia.
    assert ((m < N)%nat -> o = false) as No.
    { intros H. apply (div_post_nocarry _ _ _ _ WW DP). rewrite LW, Lr. replace (2 * n - n)%nat with n by lia.
      specialize (Hlt H). rewrite Em, val_app, LP1', Bn_add in Hlt.
      apply val_nonneg in WP1. pose proof (Bn_pos d). apply mul_lt_cancel with (Bn d); [auto|]. lia. }
    destruct (div_post_wf _ _ _ _ DP) as [WW' LW']; [lia|].
    assert ((if o then check (m =? length (P1 ++ W' ++ T))%nat ;; Ok true else Ok o0) = Ok (o0 || o)) as ->.
    { destruct o; [|rewrite orb_false_r; reflexivity]. rewrite orb_true_r.
      rewrite check_true; [reflexivity|]. apply Nat.eqb_eq. rewrite !app_length in *.
      destruct (Nat.eq_dec m N); [lia|]. discriminate No. lia. }
    cbn [bind].
    destruct DP as (rem1 & Q1 & -> & Wr1 & WQ1 & Lr1 & LQ1 & V1 & Lt1).
    rewrite LW, Lr in LQ1. replace (2 * n - n)%nat with n in LQ1 by lia.
    replace (P1 ++ (rem1 ++ Q1) ++ T) with ((P1 ++ rem1) ++ Q1 ++ T) by (rewrite <- !app_assoc; reflexivity).
    pose proof (val_bound _ WP1) as BP1. rewrite LP1' in BP1. pose proof (Bn_pos d) as Pd.
    assert (val (P1 ++ rem1) < val rhs * Bn d) as LTd.
    { rewrite val_app, LP1'. mle (Bn d) (val rem1 + 1) (val rhs). lia. }
    destruct (IH (m - n)%nat (P1 ++ rem1) (Q1 ++ T) (o0 || o)%bool) as (rem & Q & o' & E & Wrem & WQ & Lrem & LQ & V & Lt).
    + lia.
    + apply wf_app; auto.
    + rewrite app_length; lia.
    + lia.
    + rewrite !app_length in *. lia.
    + intros _. rewrite Em. replace (n + d - n)%nat with d by lia. auto.
    + auto.
    + intros _. apply Z.le_trans with (mul_memory (n / 2)); [apply mul_memory_mono; lia|]. lia.
    + replace (m - n - n)%nat with d in * by lia.
      assert (o' = false) as ->.
      { destruct o'; [exfalso|reflexivity]. cbn [Z.b2z] in V. apply val_nonneg in WQ, Wrem.
        assert (0 <= val rhs) by lia. mnn (val rhs) (val Q). lia. }
      exists rem, (Q ++ Q1), o. rewrite orb_false_r in E. split; [rewrite E, <- app_assoc; reflexivity|].
      split; [auto|]. split; [apply wf_app; auto|]. split; [auto|]. split; [rewrite app_length; lia|].
      split; [|auto]. rewrite !val_app, LP1', LQ in *. rewrite Em, (Nat.add_comm n d), Bn_add. cbn [Z.b2z] in V.
      rewrite LQ1 in V1.
      assert (Bn d * val W = Bn d * (val rem1 + val rhs * (val Q1 + Bn n * Z.b2z o))) as EM by (rewrite V1; reflexivity).
      lia.
  - specialize (Hm2 C). destruct (Nat.ltb_spec n m) as [C2|C2].
    + replace (P ++ T) with ([] ++ P ++ T) by reflexivity. rewrite on_window_app by (simpl; lia).
      destruct (small_quotient_spec depth (div_same_len_fuel depth) n (m - n) mem) with (lhs := P) (rhs := rhs) (f := f)
        as (P' & o & -> & DP); auto; try lia.
      { intros _. apply ddeep_mul; auto; lia. }
      { intros H. apply div_same_len_fuel_spec; auto. apply (ddeep_weaken depth n); auto. lia. }
      cbn [bind app].
      assert ((m < N)%nat -> o = false) as No.
      { intros H. apply (div_post_nocarry _ _ _ _ WP DP). rewrite LP, Lr. auto. }
      destruct (div_post_wf _ _ _ _ DP) as [WW' LW']; [lia|].
      assert ((if o then check (m =? length (P' ++ T))%nat ;; Ok true else Ok o0) = Ok (o0 || o)) as ->.
      { destruct o; [|rewrite orb_false_r; reflexivity]. rewrite orb_true_r.
        rewrite check_true; [reflexivity|]. apply Nat.eqb_eq. rewrite !app_length in *.
        destruct (Nat.eq_dec m N); [lia|]. discriminate No. lia. }
      cbn [bind].
      destruct DP as (rem1 & Q1 & -> & Wr1 & WQ1 & Lr1 & LQ1 & V1 & Lt1).
      exists rem1, Q1, o. rewrite <- app_assoc. split; [reflexivity|]. rewrite LP, Lr in LQ1.
      rewrite LQ1 in V1. repeat split; auto; lia.
    + assert (m = n) as -> by lia. exists P, [], false. rewrite orb_false_r. split; [reflexivity|].
      specialize (Hlt ltac:(lia)).
      cbn [val length Z.b2z]. rewrite Nat.sub_diag, Bn_0 in *. repeat split; auto using wf_nil; lia.
Qed.

Lemma ddeep_S fuel n : ddeep fuel n -> ddeep (S fuel) n.
Proof. intros (k & H & K). exists k. lia. Qed.

Lemma dc_div_rem_spec depth lhs rhs f mem : norm_div rhs f -> wf lhs -> ddeep depth (length rhs) ->
  (32 < length rhs)%nat -> (length rhs + 32 < length lhs)%nat ->
  dc_memory (length lhs) (length rhs) <= mem ->
  exists lhs' o, dc_div_rem_depth depth lhs rhs f mem = Ok (lhs', o) /\ div_post lhs rhs lhs' o.
Proof.
  intros Hr Wl HD H1 H2 Hm. unfold dc_div_rem_depth, dc_memory in *. change DIV_MAX_LEN_SIMPLE with 32%nat.
  rewrite check_true by (rewrite (proj2 (Nat.ltb_lt _ _)), (proj2 (Nat.ltb_lt _ _)) by lia; reflexivity).
  rewrite check_true by (rewrite (proj2 (Nat.ltb_lt _ _)), (proj2 (Nat.leb_le _ _)) by lia; reflexivity).
  set (n := length rhs) in *. set (N := length lhs) in *.
  destruct (dc_loop_spec depth rhs f mem n N Hr eq_refl ltac:(lia) (ddeep_S _ _ HD) HD (S N) N lhs [] false)
    as (rem & Q & o & E & Wrem & WQ & Lrem & LQ & V & Lt); auto; try lia.
  - rewrite app_nil_r. reflexivity.
  - intros C. rewrite Nat.min_l in Hm; [auto|].
    pose proof (Nat.div_mod n 2 ltac:(lia)). lia.
  - rewrite !app_nil_r in E. rewrite E. cbn [orb]. do 2 eexists; split; [reflexivity|].
    exists rem, Q. rewrite LQ. repeat split; auto.
Qed.

(** src/div/mod.rs:130-143 within the memory announced by [div_memory]. *)
Lemma div_rem_depth_spec depth lhs rhs f need mem : norm_div rhs f -> wf lhs ->
  ((32 < length rhs)%nat -> ddeep depth (length rhs)) ->
  (2 <= length rhs)%nat -> (length rhs <= length lhs)%nat ->
  div_memory (length lhs) (length rhs) = Ok need -> need <= mem ->
  exists lhs' o, div_rem_depth depth lhs rhs f mem = Ok (lhs', o) /\ div_post lhs rhs lhs' o.
Proof.
  intros Hr Wl HD H1 H2 E Hm. unfold div_rem_depth, div_memory in *. change DIV_MAX_LEN_SIMPLE with 32%nat in *.
  rewrite check_true by (rewrite (proj2 (Nat.leb_le _ _)), (proj2 (Nat.leb_le _ _)) by lia; reflexivity).
  rewrite check_true in E by (rewrite (proj2 (Nat.leb_le _ _)), (proj2 (Nat.leb_le _ _)) by lia; reflexivity).
  destruct (Nat.leb_spec (length rhs) 32); cbn [orb] in *; [apply simple_div_spec; auto|].
  destruct (Nat.leb_spec (length lhs - length rhs) 32); [apply simple_div_spec; auto|].
  injection E as <-. apply dc_div_rem_spec; auto; lia.
Qed.

Lemma div_rem_in_place_spec lhs rhs f need mem : norm_div rhs f -> wf lhs ->
  (2 <= length rhs)%nat -> (length rhs <= length lhs)%nat ->
  div_memory (length lhs) (length rhs) = Ok need -> need <= mem ->
  exists lhs' o, div_rem_in_place lhs rhs f mem = Ok (lhs', o) /\ div_post lhs rhs lhs' o.
Proof.
  intros Hr Wl H1 H2 E Hm. unfold div_rem_in_place. apply (div_rem_depth_spec _ lhs rhs f need); auto.
  intros H. apply ddeep_lt; lia.
Qed.

Lemma div_memory_Ok n m : (m <= n)%nat -> (2 <= m)%nat -> exists need, div_memory n m = Ok need /\ 0 <= need.
Proof.
  intros H1 H2. unfold div_memory.
  rewrite check_true by (rewrite (proj2 (Nat.leb_le _ _)), (proj2 (Nat.leb_le _ _)) by lia; reflexivity).
  destruct (_ || _)%bool; eexists; (split; [reflexivity|]); [reflexivity|]. apply mul_memory_nonneg.
Qed.

Lemma last_word_snoc a w : last_word (a ++ [w]) = Ok w.
Proof.
  unfold last_word, get. rewrite app_length. simpl length.
  replace (length a + 1 - 1)%nat with (length a) by lia.
  rewrite nth_error_app2, Nat.sub_diag by lia. reflexivity.
Qed.

Lemma normalize_large_spec rest w : wf (rest ++ [w]) -> w <> 0 -> (1 <= length rest)%nat ->
  exists ws f, normalize_large (rest ++ [w]) = Ok (ws, leading_zeros_w w, f) /\
    norm_div ws f /\ length ws = S (length rest) /\ 0 <= leading_zeros_w w < wbits /\
    val ws = val (rest ++ [w]) * 2 ^ leading_zeros_w w.
Proof.
  intros W N L. pose proof W as WW. apply wf_app in W as [Wr W0]. apply wf_cons in W0 as [W0 _].
  unfold normalize_large. rewrite app_length. simpl length.
  rewrite check_true by (apply Nat.leb_le; lia). rewrite last_word_snoc. cbn [bind].
  assert (0 < w < B) as W1 by lia. pose proof (leading_zeros_w_lt w W1) as Hs.
  destruct (normalize_word w W1) as [N1 N2]. set (s := leading_zeros_w w) in *. clearbody s.
  destruct (shl_in_place_spec (rest ++ [w]) s WW ltac:(lia)) as (ws & c & -> & Lws & Wws & Hc & V). cbn [bind].
  rewrite app_length in *. simpl length in *. rewrite Nat.add_1_r in *.
  assert (0 < 2 ^ s) as Ps by (apply Z.pow_pos_nonneg; lia).
  assert (B = 2 ^ (wbits - s) * 2 ^ s) as EB.
  { rewrite B_is_pow, <- Z.pow_add_r by lia. f_equal; lia. }
  assert (w + 1 <= 2 ^ (wbits - s)) as Hw.
  { cut (w < 2 ^ (wbits - s)); [lia|]. apply mul_lt_cancel with (2 ^ s); lia. }
  mle (2 ^ s) (w + 1) (2 ^ (wbits - s)).
  pose proof (val_bound _ Wr) as Br. pose proof (Bn_pos (length rest)) as Pr.
  rewrite Bn_S in V. rewrite val_app, val_single in V.
  pose proof (val_bound _ Wws) as Bws. rewrite Lws, Bn_S in Bws.
  assert (c = 0) as ->.
  { assert (c < 1); [|lia]. apply mul_lt_cancel with (B * Bn (length rest)); [pose proof B_pos; lia|].
    mle (Bn (length rest)) ((w + 1) * 2 ^ s) (@B A). mlt (2 ^ s) (val rest) (Bn (length rest)). lia. }
  rewrite check_true by reflexivity.
  destruct (snoc_split ws (length rest) Lws) as (rest' & t & -> & Lr').
  rewrite last_word_snoc. cbn [bind].
  pose proof Wws as Wt. apply wf_app in Wt as [Wr' Wt]. apply wf_cons in Wt as [Wt _].
  rewrite val_app, val_single, Lr' in V. pose proof (val_bound _ Wr') as Br'. rewrite Lr' in Br'.
  assert (w * 2 ^ s < t + 1) as Ht.
  { apply mul_lt_cancel with (Bn (length rest)); [auto|]. mnn (val rest) (2 ^ s). lia. }
  destruct (fdn_new_spec t) as (f & -> & F); [lia|lia|]. cbn [bind].
  exists (rest' ++ [t]), f. split; [reflexivity|]. split; [split; [auto|]; exists rest', t; auto|].
  split; [auto|]. split; [auto|]. rewrite !val_app, !val_single, Lr'. lia.
Qed.

End DivProofs.
