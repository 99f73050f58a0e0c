(** Correctness of Karatsuba, Toom-Cook-3 and general multiplication
    (src/mul/*.rs), with the scratch memory they announce. *)
From Verif Require Import Proofs.Basics Proofs.AddProofs Proofs.ShiftProofs Proofs.FastDivideProofs
  Proofs.DivWordProofs Proofs.MulWordProofs.
From Verif Require Import Model.Add Model.Shift Model.DivWord Model.Memory Model.Mul.

(** Keep big equations away from [lia] until they are needed. *)
Definition hid (P : Prop) : Prop := P.
Ltac hd V := match type of V with ?T => change (hid T) in V end.

Section MulProofs.
Context {A : Arch} {AOK : ArchOk A}.

(** * Scratch memory *)
Lemma clog_bitlen n : ceil_log_2_usize n = bitlen (Z.of_nat n - 1).
Proof. unfold ceil_log_2_usize, ceil_log_2, bit_len_n, leading_zeros_n. lia. Qed.

Lemma bitlen_mono x y : 0 <= x <= y -> bitlen x <= bitlen y.
Proof.
  intros H. unfold bitlen. destruct (Z.eqb_spec x 0), (Z.eqb_spec y 0); try lia.
  - pose proof (Z.log2_nonneg y); lia.
  - pose proof (Z.log2_le_mono x y ltac:(lia)); lia.
Qed.

Lemma bitlen_double x : 0 < x -> bitlen (2 * x) = bitlen x + 1.
Proof. intros H. unfold bitlen. destruct (Z.eqb_spec (2 * x) 0), (Z.eqb_spec x 0); try lia.
  rewrite Z.log2_double by lia. lia. Qed.

Lemma mul_memory_mono n m : (n <= m)%nat -> mul_memory n <= mul_memory m.
Proof.
  intros H. unfold mul_memory, karatsuba_memory, toom_3_memory, MAX_LEN_SIMPLE, MAX_LEN_KARATSUBA.
  rewrite !clog_bitlen. pose proof (bitlen_nonneg (Z.of_nat n - 1)). pose proof (bitlen_nonneg (Z.of_nat m - 1)).
  destruct (Nat.leb_spec n 24), (Nat.leb_spec m 24), (Nat.leb_spec n 192), (Nat.leb_spec m 192);
    try lia; pose proof (bitlen_mono (Z.of_nat n - 1) (Z.of_nat m - 1) ltac:(lia)); lia.
Qed.

Lemma mul_memory_nonneg n : 0 <= mul_memory n.
Proof. change 0 with (mul_memory 0). apply mul_memory_mono. lia. Qed.

Lemma alloc_ok n mem : 0 < mem -> Z.of_nat n <= mem -> alloc n mem = Ok (mem - Z.of_nat n).
Proof. intros P H. unfold alloc. rewrite (proj2 (Z.leb_le _ _)), (proj2 (Z.ltb_lt _ _)) by auto. reflexivity. Qed.

Lemma alloc_fill_ok n v mem : 0 < mem -> Z.of_nat n <= mem -> alloc_fill n v mem = Ok (repeat v n, mem - Z.of_nat n).
Proof. intros P H. unfold alloc_fill. rewrite alloc_ok by auto. reflexivity. Qed.

Lemma alloc_copy_ok l mem : 0 < mem -> Z.of_nat (length l) <= mem -> alloc_copy l mem = Ok (l, mem - Z.of_nat (length l)).
Proof. intros P H. unfold alloc_copy. rewrite alloc_ok by auto. reflexivity. Qed.

Lemma alloc_copy_fill_ok n l v mem : 0 < mem -> (length l <= n)%nat -> Z.of_nat n <= mem ->
  alloc_copy_fill n l v mem = Ok (l ++ repeat v (n - length l), mem - Z.of_nat n).
Proof. intros P L H. unfold alloc_copy_fill. rewrite check_true by (apply Nat.leb_le; auto).
  rewrite alloc_ok by auto. reflexivity. Qed.

Lemma sword_chk_ok z : Z.abs z <= 1000 -> sword_chk z = Ok z.
Proof. intros H. pose proof B_ge. unfold sword_chk.
  replace ((- B <=? 2 * z) && (2 * z <? B)) with true by lia. reflexivity. Qed.

(** * Window steps *)
Lemma w_same c i j s r : wf c -> wf r -> (i <= j)%nat -> (j <= length c)%nat ->
  length r = (j - i)%nat ->
  exists c' k, on_window i j c (fun w => add_signed_same_len_in_place w s r) = Ok (c', k) /\
    wpost c c' i j (sign_val s * val r) k /\ -1 <= k <= 1.
Proof.
  intros. apply (on_window_spec (fun k => k)); auto.
  intros w Ww Lw. apply add_signed_same_len_spec; auto. lia.
Qed.

Lemma w_add c i j s r : wf c -> wf r -> (i <= j)%nat -> (j <= length c)%nat ->
  (length r <= j - i)%nat ->
  exists c' k, on_window i j c (fun w => add_signed_in_place w s r) = Ok (c', k) /\
    wpost c c' i j (sign_val s * val r) k /\ -1 <= k <= 1.
Proof.
  intros. apply (on_window_spec (fun k => k)); auto.
  intros w Ww Lw. apply add_signed_spec; auto. lia.
Qed.

Lemma w_word c i j x : wf c -> (i <= j)%nat -> (j <= length c)%nat -> Z.abs x <= 1000 ->
  exists c' k, on_window i j c (fun w => add_signed_word_in_place w x) = Ok (c', k) /\
    wpost c c' i j x k /\ (Z.abs k <= Z.max 1 (Z.abs x) /\ ((i < j)%nat -> Z.abs k <= 1)).
Proof.
  intros Hc Hij Hj Hx. pose proof B_ge. apply (on_window_spec (fun k => k)); auto.
  intros w Ww Lw. destruct (add_signed_word_spec w x Ww) as (w' & k & E & U & R1 & R2); [lia|].
  exists w', k. split; [exact E|]. split; [exact U|]. destruct w as [|y w].
  - destruct U as (L & _ & V). simpl in L. destruct w'; [|discriminate]. simpl in V. rewrite Bn_0 in V.
    simpl in Lw. split; lia.
  - assert (y :: w <> []) as N by discriminate. specialize (R2 N). split; [|intros _]; lia.
Qed.

(** A multiplication routine for operands of [n] words, given enough scratch. *)
Definition rec_ok (rec : mul_fn) (n : nat) (need : Z) : Prop :=
  forall c s a b mem, wf c -> wf a -> wf b -> length a = n -> length b = n ->
    length c = (2 * n)%nat -> need <= mem ->
    exists c' k, rec c s a b mem = Ok (c', k) /\ mul_post c c' s a b k.

Lemma rec_ok_le rec n need need' : need <= need' -> rec_ok rec n need -> rec_ok rec n need'.
Proof. intros L H c s a b mem; intros. apply H; auto. lia. Qed.

Lemma w_rec rec n need c i j s a b mem : rec_ok rec n need -> wf c -> wf a -> wf b ->
  length a = n -> length b = n -> (i <= j)%nat -> (j <= length c)%nat -> (j - i = 2 * n)%nat -> need <= mem ->
  exists c' k, on_window i j c (fun w => rec w s a b mem) = Ok (c', k) /\
    wpost c c' i j (sign_val s * (val a * val b)) k /\ -1 <= k <= 1.
Proof.
  intros Hr Hc Ha Hb La Lb Hij Hj L M. apply (on_window_spec (fun k => k)); auto.
  intros w Ww Lw. destruct (Hr w s a b mem) as (w' & k & E & P); auto; [lia|].
  exists w', k. split; [exact E|]. split; [exact P|].
  apply (mul_post_carry w w' s a b); auto. lia.
Qed.

(** Multiplying into a zeroed area, or one with enough room: no carry. *)
Lemma rec_nocarry rec n need c a b mem : rec_ok rec n need -> wf c -> wf a -> wf b ->
  length a = n -> length b = n -> length c = (2 * n)%nat -> need <= mem ->
  val c + val a * val b < Bn (2 * n) ->
  exists c', rec c Positive a b mem = Ok (c', 0) /\ wf c' /\ length c' = (2 * n)%nat /\
    val c' = val c + val a * val b.
Proof.
  intros Hr Hc Ha Hb La Lb Lc M V.
  destruct (Hr c Positive a b mem) as (c' & k & E & P); auto.
  unfold mul_post in P. cbn [sign_val] in P. rewrite Z.mul_1_l in P.
  pose proof (val_nonneg _ Hc). pose proof (Z.mul_nonneg_nonneg _ _ (val_nonneg _ Ha) (val_nonneg _ Hb)).
  destruct (upd_post_nocarry c c' _ k Hc P) as [-> V']; [rewrite Lc; lia|].
  exists c'. destruct P as (L & W & _). repeat split; auto. lia.
Qed.

Lemma rec_zero rec n need a b mem : rec_ok rec n need -> wf a -> wf b ->
  length a = n -> length b = n -> need <= mem ->
  exists c', rec (repeat 0 (2 * n)) Positive a b mem = Ok (c', 0) /\ wf c' /\ length c' = (2 * n)%nat /\
    val c' = val a * val b.
Proof.
  intros Hr Ha Hb La Lb M.
  destruct (rec_nocarry rec n need (repeat 0 (2 * n)) a b mem) as (c' & E & W & L & V); auto using wf_repeat0.
  - apply repeat_length.
  - rewrite val_repeat0. pose proof (mul_range _ _ _ _ (val_bound _ Ha) (val_bound _ Hb)) as R.
    rewrite La, Lb, <- Bn_add in R. replace (n + n)%nat with (2 * n)%nat in R by lia. lia.
  - exists c'. rewrite val_repeat0 in V. auto.
Qed.

Lemma sign_val_mul s t : sign_val (sign_mul s t) = sign_val s * sign_val t.
Proof. destruct s, t; reflexivity. Qed.
Lemma sign_val_neg s : sign_val (sign_neg s) = - sign_val s.
Proof. destruct s; reflexivity. Qed.

(** * Karatsuba *)
Lemma karatsuba_spec rec n : (25 <= n <= 192)%nat ->
  (forall m, (m < n)%nat -> (2 * m <= n + 1)%nat -> rec_ok rec m (mul_memory m)) ->
  rec_ok (karatsuba_same_len rec) n (mul_memory n).
Proof.
  intros Hn Hrec c s a b mem Wc Wa Wb La Lb Lc Hm.
  unfold karatsuba_same_len. rewrite La, Lb, Lc, !Nat.eqb_refl. cbn [andb].
  rewrite check_true by reflexivity.
  rewrite check_true by (apply Nat.leb_le; unfold KARATSUBA_MIN_LEN; lia).
  pose proof (Nat.div_mod (n + 1) 2 ltac:(lia)) as Dm.
  pose proof (Nat.mod_upper_bound (n + 1) 2 ltac:(lia)) as Db.
  set (mid := ((n + 1) / 2)%nat) in *.
  assert (mid + mid <= n + 1 /\ n <= mid + mid)%nat as [M1 M2] by lia.
  assert (mul_memory mid + 2 * Z.of_nat mid <= mem) as Mem1.
  { assert (mul_memory n = 2 * Z.of_nat n + 2 * bitlen (Z.of_nat n - 1)) as En.
    { unfold mul_memory, MAX_LEN_SIMPLE, MAX_LEN_KARATSUBA, karatsuba_memory. rewrite clog_bitlen.
      destruct (Nat.leb_spec n 24), (Nat.leb_spec n 192); lia. }
    assert (mul_memory mid <= 2 * Z.of_nat mid + 2 * bitlen (Z.of_nat mid - 1)) as Em.
    { unfold mul_memory, MAX_LEN_SIMPLE, MAX_LEN_KARATSUBA, karatsuba_memory. rewrite clog_bitlen.
      pose proof (bitlen_nonneg (Z.of_nat mid - 1)).
      destruct (Nat.leb_spec mid 24), (Nat.leb_spec mid 192); lia. }
    pose proof (bitlen_double (Z.of_nat mid - 1) ltac:(lia)) as Eb.
    pose proof (bitlen_mono (2 * (Z.of_nat mid - 1)) (Z.of_nat n - 1) ltac:(lia)). lia. }
  assert (mul_memory (n - mid) <= mul_memory mid) as Mem2 by (apply mul_memory_mono; lia).
  pose proof (mul_memory_nonneg mid) as Mem0.
  clearbody mid. clear Dm Db.
  assert (exists h, n = mid + h)%nat as [h Eh] by (exists (n - mid)%nat; lia).
  replace (n - mid)%nat with h in * by lia.
  rewrite !split_at_Ok by lia. cbn [bind].
  destruct (list_split mid a ltac:(lia)) as (a_lo & a_hi & -> & La1 & La2 & -> & ->).
  destruct (list_split mid b ltac:(lia)) as (b_lo & b_hi & -> & Lb1 & Lb2 & -> & ->).
  rewrite app_length in La, Lb, La2, Lb2.
  apply wf_app in Wa as [Wa1 Wa2]. apply wf_app in Wb as [Wb1 Wb2].
  assert (length a_hi = h) as La3 by lia. assert (length b_hi = h) as Lb3 by lia.
  assert (length c = mid + mid + h + h)%nat as Lc0 by lia.
  assert (h <= mid <= h + 1)%nat as Hh by lia. assert (1 <= h)%nat as Hh1 by lia. clear La Lb Lc La2 Lb2 M1 M2.
  (* low product *)
  rewrite alloc_fill_ok by lia. cbn [bind].
  destruct (rec_zero rec mid _ a_lo b_lo (mem - Z.of_nat (2 * mid)) (Hrec mid ltac:(lia) ltac:(lia)))
    as (c_lo & -> & Wl & Ll & Vl); [auto; lia..|hd Vl]. cbn [bind]. rewrite check_true by reflexivity.
  destruct (w_same c 0 (2 * mid) s c_lo) as (c1 & k1 & -> & (Lc1 & Wc1 & V1) & R1); [auto; try lia..|hd V1]. cbn [bind].
  destruct (w_same c1 mid (3 * mid) s c_lo) as (c2 & k2 & -> & (Lc2 & Wc2 & V2) & R2); [auto; try lia..|hd V2]. cbn [bind].
  (* high product *)
  rewrite alloc_fill_ok by lia. cbn [bind].
  destruct (rec_zero rec h _ a_hi b_hi (mem - Z.of_nat (2 * h)) (Hrec h ltac:(lia) ltac:(lia)))
    as (c_hi & -> & Wh & Lh & Vh); [auto; lia..|hd Vh]. cbn [bind]. rewrite check_true by reflexivity.
  destruct (w_same c2 (2 * mid) (length c2) s c_hi) as (c3 & k3 & -> & (Lc3 & Wc3 & V3) & R3); [auto; try lia..|hd V3]. cbn [bind].
  destruct (w_add c3 mid (3 * mid) s c_hi) as (c4 & k4 & -> & (Lc4 & Wc4 & V4) & R4); [auto; try lia..|hd V4]. cbn [bind].
  rewrite sword_chk_ok by lia. cbn [bind].
  (* middle product *)
  rewrite alloc_copy_ok by lia. cbn [bind].
  destruct (sub_in_place_with_sign_spec a_lo a_hi) as (a_diff & sa & -> & (Lad & Wad & Vad & _)); [auto; lia..|hd Vad]. cbn [bind].
  rewrite alloc_copy_ok by lia. cbn [bind].
  destruct (sub_in_place_with_sign_spec b_lo b_hi) as (b_diff & sb & -> & (Lbd & Wbd & Vbd & _)); [auto; lia..|hd Vbd]. cbn [bind].
  destruct (w_rec rec mid _ c4 mid (3 * mid) (sign_mul (sign_neg s) (sign_mul sa sb)) a_diff b_diff
      (mem - Z.of_nat (length a_lo) - Z.of_nat (length b_lo)) (Hrec mid ltac:(lia) ltac:(lia)))
    as (c5 & k5 & -> & (Lc5 & Wc5 & V5) & R5); [auto; try lia..|hd V5]. cbn [bind].
  rewrite sword_chk_ok by lia. cbn [bind].
  (* carries *)
  destruct (w_word c5 (2 * mid) (3 * mid) k1) as (c6 & k6 & -> & (Lc6 & Wc6 & V6) & (_ & R6)); [auto; try lia..|hd V6]. cbn [bind].
  specialize (R6 ltac:(lia)).
  rewrite sword_chk_ok by lia. cbn [bind].
  destruct (w_word c6 (3 * mid) (length c6) (k2 + k4 + k5 + k6)) as (c7 & k7 & -> & (Lc7 & Wc7 & V7) & (R7 & _)); [auto; try lia..|hd V7]. cbn [bind].
  rewrite sword_chk_ok by lia. cbn [bind].
  unfold hid in *. assert (mul_post c c7 s (a_lo ++ a_hi) (b_lo ++ b_hi) (k3 + k7)) as P.
  { unfold mul_post, upd_post. split; [congruence|]. split; [auto|].
    replace (length c6) with (length c) in V7 by congruence. replace (length c2) with (length c) in V3 by congruence.
    rewrite !val_app, La1, Lb1. rewrite sign_val_mul, sign_val_neg, sign_val_mul in V5.
    assert (- sign_val s * (sign_val sa * sign_val sb) * (val a_diff * val b_diff) =
            - sign_val s * ((val a_lo - val a_hi) * (val b_lo - val b_hi))) as E5
      by (rewrite <- Vad, <- Vbd; ring).
    rewrite E5 in V5. clear E5 Vad Vbd. rewrite Vl in *. rewrite Vh in *. rewrite Bn_0 in V1.
    replace (Bn (2 * mid)) with (Bn mid * Bn mid) in * by (rewrite <- Bn_add; f_equal; lia).
    clear - V1 V2 V3 V4 V5 V6 V7. lia. }
  pose proof (mul_post_carry c c7 s (a_lo ++ a_hi) (b_lo ++ b_hi) (k3 + k7) Wc) as RC.
  rewrite check_true.
  - do 2 eexists; split; [reflexivity|]. exact P.
  - apply Z.leb_le. apply Z.abs_le. apply RC; auto.
    + apply wf_app; auto.
    + apply wf_app; auto.
    + rewrite !app_length. lia.
Qed.

(** * Toom-Cook-3 *)
Lemma slice_to_app {T} n (l r : list T) : length l = n -> slice_to n (l ++ r) = Ok l.
Proof. intros <-. rewrite slice_to_Ok by (rewrite app_length; lia).
  rewrite firstn_app, firstn_all, Nat.sub_diag. cbn [firstn]. rewrite app_nil_r. reflexivity. Qed.

Lemma wf_snoc l x : wf l -> 0 <= x < B -> wf (l ++ [x]).
Proof. intros H Hx. apply wf_app. split; auto. apply wf_cons. split; [auto|apply wf_nil]. Qed.

Lemma eval2_post N a0 a1 a2 l1 k1 l2 k2 : wf a0 -> wf a1 -> wf a2 ->
  length a0 = N -> length a1 = N -> (length a2 <= N)%nat ->
  upd_post a0 l1 (2 * val a1) k1 -> upd_post l1 l2 (4 * val a2) k2 -> 0 <= k1 -> 0 <= k2 ->
  word_chk (k1 + k2) = Ok (k1 + k2) /\ wf (l2 ++ [k1 + k2]) /\ length (l2 ++ [k1 + k2]) = (N + 1)%nat /\
  length l2 = N /\
  val (l2 ++ [k1 + k2]) = val a0 + 2 * val a1 + 4 * val a2.
Proof.
  intros W0 W1 W2 L0 L1 L2 (Ll1 & Wl1 & V1) (Ll2 & Wl2 & V2) K1 K2. pose proof B_ge as HB.
  apply val_bound in W0, W1, W2. pose proof (val_bound _ Wl2) as Bl.
  pose proof (Bn_le _ _ L2) as BL. rewrite L0, L1 in *. rewrite Ll2, Ll1 in *.
  assert (k1 + k2 < 8) as K8.
  { apply mul_lt_cancel with (Bn N); [apply Bn_pos|]. lia. }
  split; [apply word_chk_ok; lia|]. split; [apply wf_snoc; auto; lia|].
  rewrite app_length, val_app, val_single, Ll2. simpl length. repeat split; try lia; auto.
Qed.

Lemma b2z_range o : 0 <= Z.b2z o <= 1. Proof. destruct o; simpl; lia. Qed.

Lemma div_exact_post x q m : 0 < m -> x = m * q -> x mod m = 0 /\ x / m = q.
Proof. intros M ->. split; [apply (mod_eq 0 _ m q); lia | apply (div_eq 0 _ m q); lia]. Qed.

Lemma toom_3_spec rec n R : (193 <= n)%nat -> 0 <= R ->
  (forall m, (m < n)%nat -> (m <= (n + 2) / 3 + 1)%nat -> rec_ok rec m R) ->
  rec_ok (toom_3_same_len rec) n (8 * (Z.of_nat ((n + 2) / 3) + 1) + R).
Proof.
  intros Hn HR Hrec c s a b mem Wc Wa Wb La Lb Lc Hm.
  unfold toom_3_same_len. rewrite La, Lb, Lc, !Nat.eqb_refl. cbn [andb].
  rewrite check_true by reflexivity.
  rewrite check_true by (apply Nat.leb_le; unfold TOOM_3_MIN_LEN; lia).
  pose proof (Nat.div_mod (n + 2) 3 ltac:(lia)) as Dm.
  pose proof (Nat.mod_upper_bound (n + 2) 3 ltac:(lia)) as Db.
  set (N := ((n + 2) / 3)%nat) in *.
  assert (exists h, n = N + N + h /\ h <= N /\ N <= h + 2 /\ 60 <= h)%nat as (h & Eh & Hh1 & Hh2 & Hh3)
    by (exists (n - (N + N))%nat; lia).
  clearbody N. clear Dm Db.
  replace (n - 2 * N)%nat with h by lia.
  assert (rec_ok rec N R) as RN by (apply Hrec; lia).
  assert (rec_ok rec (N + 1) R) as RN1 by (apply Hrec; lia).
  assert (rec_ok rec h R) as Rh by (apply Hrec; lia). clear Hrec.
  rewrite (split_at_Ok N a) by lia. cbn [bind].
  destruct (list_split N a ltac:(lia)) as (a0 & a12 & -> & La0 & _ & -> & ->).
  rewrite app_length in La. rewrite (split_at_Ok N a12) by lia. cbn [bind].
  destruct (list_split N a12 ltac:(lia)) as (a1 & a2 & -> & La1 & _ & -> & ->).
  rewrite app_length in La.
  rewrite (split_at_Ok N b) by lia. cbn [bind].
  destruct (list_split N b ltac:(lia)) as (b0 & b12 & -> & Lb0 & _ & -> & ->).
  rewrite app_length in Lb. rewrite (split_at_Ok N b12) by lia. cbn [bind].
  destruct (list_split N b12 ltac:(lia)) as (b1 & b2 & -> & Lb1 & _ & -> & ->).
  rewrite app_length in Lb.
  apply wf_app in Wa as [Wa0 Wa]. apply wf_app in Wa as [Wa1 Wa2].
  apply wf_app in Wb as [Wb0 Wb]. apply wf_app in Wb as [Wb1 Wb2].
  assert (length a2 = h) as La2 by lia. assert (length b2 = h) as Lb2 by lia.
  assert (length c = 4 * N + 2 * h)%nat as Lc0 by lia. clear La Lb Lc.
  assert (n = N + N + h)%nat as En by auto. clear Eh.
  (* ranges of the six parts *)
  set (X := Bn N).
  pose proof B_ge as HB. assert (0 < X) as HX by apply Bn_pos.
  assert (Bn (2 * N) = X * X) as B2 by (unfold X; rewrite <- Bn_add; f_equal; lia).
  assert (Bn (2 * (N + 1)) = B * B * (X * X)) as B22.
  { unfold X. rewrite <- Bn_add. rewrite <- Bn_1 at 1 2. rewrite <- !Bn_add. f_equal; lia. }
  pose proof (val_bound _ Wa0) as A0. pose proof (val_bound _ Wa1) as A1. pose proof (val_bound _ Wa2) as A2.
  pose proof (val_bound _ Wb0) as D0. pose proof (val_bound _ Wb1) as D1. pose proof (val_bound _ Wb2) as D2.
  rewrite La0, La1, La2, Lb0, Lb1, Lb2 in *. pose proof (Bn_le h N Hh1) as Bh. fold X in A0, A1, D0, D1, Bh.
  remember (val a0) as x0 eqn:Ex0. remember (val a1) as x1 eqn:Ex1. remember (val a2) as x2 eqn:Ex2.
  remember (val b0) as y0 eqn:Ey0. remember (val b1) as y1 eqn:Ey1. remember (val b2) as y2 eqn:Ey2.
  assert (0 <= x2 < X) as A2' by lia. assert (0 <= y2 < X) as D2' by lia.
  assert (52 * (X * X) < B * B * (X * X)) as HXX.
  { assert (52 < B * B) by (mle B 65536 B; lia). assert (0 < X * X) by (apply Z.mul_pos_pos; auto).
    apply Z.mul_lt_mono_pos_r; auto. }
  pose proof (mul_range _ _ _ _ A0 D0) as P00. pose proof (mul_range _ _ _ _ A0 D1) as P01.
  pose proof (mul_range _ _ _ _ A0 D2') as P02. pose proof (mul_range _ _ _ _ A1 D0) as P10.
  pose proof (mul_range _ _ _ _ A1 D1) as P11. pose proof (mul_range _ _ _ _ A1 D2') as P12.
  pose proof (mul_range _ _ _ _ A2' D0) as P20. pose proof (mul_range _ _ _ _ A2' D1) as P21.
  pose proof (mul_range _ _ _ _ A2' D2') as P22.
  hd B2. hd B22. hd HXX. hd P00. hd P01. hd P02. hd P10. hd P11. hd P12. hd P20. hd P21. hd P22.
  hd A0. hd A1. hd A2. hd D0. hd D1. hd D2. hd A2'. hd D2'. hd Bh. hd HX.
  (* evaluate at 0 *)
  rewrite alloc_fill_ok by lia. cbn [bind].
  replace (2 * N + 2)%nat with (2 * N + 2 * 1)%nat by lia. rewrite repeat_app.
  rewrite split_at_app by apply repeat_length. cbn [bind].
  set (m1 := mem - Z.of_nat (2 * N + 2 * 1)).
  assert (6 * (Z.of_nat N + 1) + R <= m1) as Hm1 by lia.
  destruct (rec_zero rec N R a0 b0 m1 RN) as (t1s & -> & Wt1 & Lt1 & Vt1); [auto; lia..|hd Vt1].
  cbn [bind]. rewrite check_true by reflexivity.
  destruct (w_same c 0 (2 * N) s t1s) as (c1 & k1 & -> & (Lc1 & Wc1 & V1) & R1); [auto; try lia..|hd V1]. cbn [bind].
  replace (4 * N + 2)%nat with (2 * N + 2 * (N + 1))%nat by lia.
  destruct (w_add c1 (2 * N) (2 * N + 2 * (N + 1)) (sign_neg s) t1s)
    as (c2 & k2 & -> & (Lc2 & Wc2 & V2) & R2); [auto; try lia..|hd V2]. cbn [bind].
  destruct (mul_word_spec t1s 3 Wt1) as (t1t & kt & -> & Lt1t & Wt1t & Rkt & Vt1t); [lia|]. hd Vt1t. cbn [bind].
  (* evaluate at 2 *)
  rewrite alloc_copy_fill_ok by lia. cbn [bind].
  rewrite alloc_copy_fill_ok by lia. cbn [bind].
  set (m2 := m1 - Z.of_nat (N + 1) - Z.of_nat (N + 1)).
  assert (4 * (Z.of_nat N + 1) + R <= m2) as Hm2 by lia.
  rewrite slice_to_app by auto. cbn [bind].
  destruct (add_mul_word_same_len_spec a0 2 a1) as (al1 & ak1 & -> & UA1 & RA1); [auto; lia..|]. cbn [bind].
  destruct (add_mul_word_spec al1 4 a2) as (al2 & ak2 & -> & UA2 & RA2);
    [apply UA1|auto|destruct UA1; lia|lia|]. cbn [bind].
  destruct (eval2_post N a0 a1 a2 al1 ak1 al2 ak2) as (-> & Wa_e & La_e & _ & Va_e); [auto; lia..|].
  hd Va_e. clear UA1 UA2 RA1 RA2. cbn [bind].
  rewrite slice_to_app by auto. cbn [bind].
  destruct (add_mul_word_same_len_spec b0 2 b1) as (bl1 & bk1 & -> & UB1 & RB1); [auto; lia..|]. cbn [bind].
  destruct (add_mul_word_spec bl1 4 b2) as (bl2 & bk2 & -> & UB2 & RB2);
    [apply UB1|auto|destruct UB1; lia|lia|]. cbn [bind].
  destruct (eval2_post N b0 b1 b2 bl1 bk1 bl2 bk2) as (-> & Wb_e & Lb_e & _ & Vb_e); [auto; lia..|].
  hd Vb_e. clear UB1 UB2 RB1 RB2. cbn [bind].
  set (a_e := al2 ++ [ak1 + ak2]) in *. set (b_e := bl2 ++ [bk1 + bk2]) in *. clearbody a_e b_e.
  set (t1 := t1t ++ [kt; 0]).
  assert (wf t1) as Wt1'.
  { apply wf_app. split; auto. apply wf_cons. split; auto. apply wf_cons. split; [lia|apply wf_nil]. }
  assert (length t1 = 2 * (N + 1))%nat as Lt1' by (unfold t1; rewrite app_length; simpl; lia).
  assert (val t1 = 3 * (x0 * y0)) as Vt1'.
  { unfold t1. rewrite val_app. cbn [val]. unfold hid in *. rewrite Vt1, <- Ex0, <- Ey0 in Vt1t. rewrite Lt1t. lia. }
  clearbody t1. hd Vt1'.
  destruct (rec_nocarry rec (N + 1) R t1 a_e b_e m2 RN1) as (t1' & -> & Wt1'' & Lt1'' & Vt1''); [auto; try lia..| |hd Vt1''].
  { unfold hid in *. rewrite Va_e, Vb_e, Vt1', B22. subst x0 x1 x2 y0 y1 y2. lia. }
  cbn [bind]. rewrite check_true by reflexivity.
  (* evaluate at infinity *)
  rewrite alloc_fill_ok by lia. cbn [bind].
  rewrite slice_to_Ok by (rewrite repeat_length; lia). cbn [bind].
  replace (firstn (2 * h) (repeat 0 (2 * N + 2 * 1))) with (repeat 0 (2 * h)%nat).
  2:{ replace (2 * N + 2 * 1)%nat with (2 * h + (2 * N + 2 - 2 * h))%nat by lia.
      rewrite repeat_app, firstn_app, repeat_length, Nat.sub_diag. cbn [firstn]. rewrite app_nil_r.
      symmetry. apply firstn_all2. rewrite repeat_length. lia. }
  destruct (rec_zero rec h R a2 b2 (m2 - Z.of_nat (2 * N + 2 * 1)) Rh) as (ci & -> & Wci & Lci & Vci); [auto; lia..|hd Vci].
  cbn [bind]. rewrite check_true by reflexivity.
  destruct (w_add c2 (2 * N) (2 * N + 2 * (N + 1)) (sign_neg s) ci)
    as (c3 & k3 & -> & (Lc3 & Wc3 & V3) & R3); [auto; try lia..|hd V3]. cbn [bind].
  rewrite sword_chk_ok by lia. cbn [bind].
  destruct (w_same c3 (4 * N) (length c3) s ci) as (c4 & k4 & -> & (Lc4 & Wc4 & V4) & R4); [auto; try lia..|hd V4]. cbn [bind].
  destruct (mul_word_spec ci 12 Wci) as (ci' & ki & -> & Lci' & Wci' & Rki & Vci'); [lia|]. hd Vci'. cbn [bind].
  destruct (sub_in_place_spec t1' (ci' ++ [ki])) as (t1a & o & -> & U1); [auto|apply wf_snoc; auto|rewrite app_length; simpl; lia|].
  cbn [bind].
  assert (val (ci' ++ [ki]) = 12 * (x2 * y2)) as Vc12.
  { rewrite val_app, val_single, Lci'. unfold hid in *. rewrite Vci, <- Ex2, <- Ey2 in Vci'. lia. }
  assert (val t1' = 3 * (x0 * y0) + (x0 + 2 * x1 + 4 * x2) * (y0 + 2 * y1 + 4 * y2)) as Vt1s.
  { unfold hid in *. rewrite Vt1'', Vt1', Va_e, Vb_e. subst. reflexivity. }
  destruct (upd_post_nocarry _ _ _ _ Wt1'' U1) as [Eo Vt1a].
  { rewrite Vc12, Vt1s, Lt1''. unfold hid in *. rewrite B22. lia. }
  replace o with false by (destruct o; simpl in Eo; [lia|auto]). cbn [negb]. rewrite check_true by reflexivity.
  destruct U1 as (Lt1a & Wt1a & _). rewrite Vc12, Vt1s in Vt1a. hd Vt1a. clear Vc12 Vt1s Vci' Vt1t Vt1'.
  clear Va_e Vb_e Vt1''. clear dependent t1.
  clear dependent ci'. clear dependent t1t. clear al1 al2 bl1 bl2 ak1 ak2 bk1 bk2 Eo o.
  (* evaluate at 1 *)
  rewrite alloc_fill_ok by lia. cbn [bind].
  set (m3 := m2 - Z.of_nat (2 * N + 2 * 1)).
  assert (2 * (Z.of_nat N + 1) + R <= m3) as Hm3 by lia.
  rewrite alloc_copy_fill_ok by lia. cbn [bind].
  rewrite slice_to_app by auto. cbn [bind].
  destruct (add_in_place_spec a0 a2) as (a02 & oa & -> & (La02 & Wa02 & Va02)); [auto; lia..|]. hd Va02. cbn [bind].
  rewrite check_true by (apply Nat.eqb_eq; rewrite app_length; simpl; lia).
  destruct (add_same_len_spec a02 a1) as (a012 & oa1 & -> & (La012 & Wa012 & Va012)); [auto; lia..|]. hd Va012. cbn [bind].
  pose proof (b2z_range oa) as Roa. pose proof (b2z_range oa1) as Roa1.
  rewrite word_chk_ok by lia. cbn [bind].
  rewrite alloc_copy_fill_ok by lia. cbn [bind].
  rewrite slice_to_app by auto. cbn [bind].
  destruct (add_in_place_spec b0 b2) as (b02 & ob & -> & (Lb02 & Wb02 & Vb02)); [auto; lia..|]. hd Vb02. cbn [bind].
  rewrite check_true by (apply Nat.eqb_eq; rewrite app_length; simpl; lia).
  destruct (add_same_len_spec b02 b1) as (b012 & ob1 & -> & (Lb012 & Wb012 & Vb012)); [auto; lia..|]. hd Vb012. cbn [bind].
  pose proof (b2z_range ob) as Rob. pose proof (b2z_range ob1) as Rob1.
  rewrite word_chk_ok by lia. cbn [bind].
  generalize dependent (Z.b2z oa). generalize dependent (Z.b2z oa1).
  generalize dependent (Z.b2z ob). generalize dependent (Z.b2z ob1). intros zb1 Vb012 Rb1 zb Vb02 Rb za1 Va012 Ra1 za Va02 Ra.
  assert (wf (a02 ++ [za])) as Wa02' by (apply wf_snoc; auto; lia).
  assert (wf (b02 ++ [zb])) as Wb02' by (apply wf_snoc; auto; lia).
  assert (wf (a012 ++ [za + za1])) as Wa012' by (apply wf_snoc; auto; lia).
  assert (wf (b012 ++ [zb + zb1])) as Wb012' by (apply wf_snoc; auto; lia).
  assert (length (a02 ++ [za]) = (N + 1)%nat) as La02' by (rewrite app_length; simpl; lia).
  assert (length (b02 ++ [zb]) = (N + 1)%nat) as Lb02' by (rewrite app_length; simpl; lia).
  assert (length (a012 ++ [za + za1]) = (N + 1)%nat) as La012' by (rewrite app_length; simpl; lia).
  assert (length (b012 ++ [zb + zb1]) = (N + 1)%nat) as Lb012' by (rewrite app_length; simpl; lia).
  assert (length a012 = N) as La012N by lia. assert (length b012 = N) as Lb012N by lia.
  assert (length a02 = N) as La02N by lia. assert (length b02 = N) as Lb02N by lia.
  assert (val (a02 ++ [za]) = x0 + x2) as VA02.
  { rewrite val_app, val_single, La02N. unfold hid in *. rewrite La0 in Va02. lia. }
  assert (val (b02 ++ [zb]) = y0 + y2) as VB02.
  { rewrite val_app, val_single, Lb02N. unfold hid in *. rewrite Lb0 in Vb02. lia. }
  assert (val (a012 ++ [za + za1]) = x0 + x1 + x2) as VA012.
  { rewrite val_app, val_single, La012N. unfold hid in *. rewrite La0 in Va02. rewrite La02N in Va012. lia. }
  assert (val (b012 ++ [zb + zb1]) = y0 + y1 + y2) as VB012.
  { rewrite val_app, val_single, Lb012N. unfold hid in *. rewrite Lb0 in Vb02. rewrite Lb02N in Vb012. lia. }
  clear Va02 Va012 Vb02 Vb012.
  set (A02 := a02 ++ [za]) in *. set (B02 := b02 ++ [zb]) in *.
  set (A012 := a012 ++ [za + za1]) in *. set (B012 := b012 ++ [zb + zb1]) in *.
  clearbody A02 B02 A012 B012.
  replace (2 * N + 2 * 1)%nat with (2 * (N + 1))%nat in * by lia.
  destruct (rec_zero rec (N + 1) R A012 B012 (m3 - Z.of_nat (N + 1) - Z.of_nat (N + 1)) RN1)
    as (t2 & -> & Wt2 & Lt2 & Vt2); [auto; lia..|rewrite VA012, VB012 in Vt2; hd Vt2].
  cbn [bind]. rewrite check_true by reflexivity.
  replace (3 * N + 2)%nat with (N + 2 * (N + 1))%nat by lia.
  destruct (w_add c4 N (N + 2 * (N + 1)) s t2) as (c5 & k5 & -> & (Lc5 & Wc5 & V5) & R5); [auto; try lia..|hd V5]. cbn [bind].
  (* evaluate at -1 *)
  destruct (sub_in_place_with_sign_spec A02 a1) as (am & sa & -> & (Lam & Wam & Vam & _)); [auto; lia..|].
  rewrite VA02, <- Ex1 in Vam. hd Vam. cbn [bind].
  destruct (sub_in_place_with_sign_spec B02 b1) as (bm & sb & -> & (Lbm & Wbm & Vbm & _)); [auto; lia..|].
  rewrite VB02, <- Ey1 in Vbm. hd Vbm. cbn [bind].
  cbv zeta.
  destruct (rec_zero rec (N + 1) R am bm (m3 - Z.of_nat (2 * (N + 1))) RN1)
    as (cm & -> & Wcm & Lcm & Vcm); [auto; lia..|].
  cbn [bind]. rewrite check_true by reflexivity.
  set (sm := sign_mul sa sb) in *.
  assert (sign_val sm * val cm = (x0 - x1 + x2) * (y0 - y1 + y2)) as Vm.
  { unfold sm. rewrite sign_val_mul, Vcm. unfold hid in *.
    replace (x0 - x1 + x2) with (sign_val sa * val am) by lia.
    replace (y0 - y1 + y2) with (sign_val sb * val bm) by lia. ring. }
  clearbody sm. clear Vam Vbm Vcm.
  destruct (add_signed_same_len_spec t2 sm cm) as (t2a & o2 & -> & U2 & _); [auto; lia..|]. cbn [bind].
  rewrite Vm in U2.
  destruct (upd_post_nocarry _ _ _ _ Wt2 U2) as [-> Vt2a].
  { rewrite Lt2. unfold hid in *. rewrite Vt2, B22. lia. }
  rewrite check_true by reflexivity. destruct U2 as (Lt2a & Wt2a & _).
  assert (val t1a + 2 * (sign_val sm * val cm) = 6 * (x0 * y0 + (x0 * y2 + x1 * y1 + x2 * y0) + (x1 * y2 + x2 * y1) + x2 * y2)) as V6.
  { rewrite Vm. unfold hid in *. rewrite Vt1a. ring. }
  assert (exists t1b, (match sm with
     | Positive => add_mul_word_same_len_in_place t1a 2 cm
     | Negative => sub_mul_word_same_len_in_place t1a 2 cm end) = Ok (t1b, 0) /\
     length t1b = (2 * (N + 1))%nat /\ wf t1b /\ val t1b = val t1a + 2 * (sign_val sm * val cm))
    as (t1b & -> & Lt1b & Wt1b & Vt1b).
  { assert (0 <= val t1a + 2 * (sign_val sm * val cm) < Bn (length t1a)) as Hr.
    { rewrite V6. unfold hid in *. rewrite Lt1a, Lt1'', B22. lia. }
    destruct sm; cbn [sign_val] in *.
    - destruct (add_mul_word_same_len_spec t1a 2 cm) as (t1b & k & -> & U & _); [auto; lia..|].
      destruct (upd_post_nocarry _ _ _ _ Wt1a U) as [-> Vb]; [lia|]. destruct U as (Lb & Wb' & _).
      exists t1b. repeat split; auto; lia.
    - destruct (sub_mul_word_same_len_spec t1a 2 cm) as (t1b & k & -> & U & _); [auto; lia..|].
      destruct (upd_post_nocarry _ _ _ _ Wt1a U) as [Ek Vb]; [lia|]. destruct U as (Lb & Wb' & _).
      replace k with 0 by lia. exists t1b. repeat split; auto; lia. }
  cbn [bind]. rewrite check_true by reflexivity. rewrite V6 in Vt1b.
  clear V6 Vt1a Vm.
  (* divisions *)
  destruct (div_by_word_spec t1b 6 Wt1b) as (t1c & -> & Lt1c & Wt1c & Vt1c); [lia|]. cbn [bind].
  destruct (div_exact_post (val t1b) _ 6 ltac:(lia) Vt1b) as [-> Q6]. rewrite Q6 in Vt1c. clear Q6 Vt1b.
  pose proof wbits_ge as Hwb.
  destruct (shr_in_place_spec t2a 1 Wt2a) as (t2b & rem2 & -> & Lt2b & Wt2b & Rr2 & Vt2b); [lia|]. cbn [bind].
  change (2 ^ 1) with 2 in *.
  assert (rem2 = 0 /\ val t2b = x0 * y0 + (x0 * y2 + x1 * y1 + x2 * y0) + x2 * y2) as [-> Vt2c].
  { unfold hid in *. rewrite Vt2a, Vt2 in Vt2b. clear - Vt2b Rr2.
    assert (rem2 = 2 * ((x0 * y0 + (x0 * y2 + x1 * y1 + x2 * y0) + x2 * y2) - val t2b)) as E by lia. lia. }
  clear Vt2a Vt2b. rewrite check_true by reflexivity. rewrite check_true by reflexivity.
  hd Vt1c. hd Vt2c.
  (* interpolation *)
  destruct (w_same c5 N (N + 2 * (N + 1)) (sign_neg s) t1c) as (c6 & k6 & -> & (Lc6 & Wc6 & V6) & R6); [auto; try lia..|hd V6]. cbn [bind].
  rewrite sword_chk_ok by lia. cbn [bind].
  replace (5 * N + 2)%nat with (3 * N + 2 * (N + 1))%nat by lia.
  destruct (w_same c6 (3 * N) (3 * N + 2 * (N + 1)) s t1c) as (c7 & k7 & -> & (Lc7 & Wc7 & V7) & R7); [auto; try lia..|hd V7]. cbn [bind].
  destruct (w_same c7 (2 * N) (2 * N + 2 * (N + 1)) s t2b) as (c8 & k8 & -> & (Lc8 & Wc8 & V8) & R8); [auto; try lia..|hd V8]. cbn [bind].
  rewrite sword_chk_ok by lia. cbn [bind].
  destruct (w_same c8 (3 * N) (3 * N + 2 * (N + 1)) (sign_neg s) t2b) as (c9 & k9 & -> & (Lc9 & Wc9 & V9) & R9); [auto; try lia..|hd V9]. cbn [bind].
  rewrite sword_chk_ok by lia. cbn [bind].
  (* carries *)
  destruct (w_word c9 (2 * N) (N + 2 * (N + 1)) k1) as (c10 & k10 & -> & (Lc10 & Wc10 & V10) & (_ & R10)); [auto; try lia..|hd V10]. cbn [bind].
  specialize (R10 ltac:(lia)). rewrite sword_chk_ok by lia. cbn [bind].
  destruct (w_word c10 (N + 2 * (N + 1)) (2 * N + 2 * (N + 1)) (k5 + k6 + k10)) as (c11 & k11 & -> & (Lc11 & Wc11 & V11) & (_ & R11)); [auto; try lia..|hd V11]. cbn [bind].
  specialize (R11 ltac:(lia)). rewrite sword_chk_ok by lia. cbn [bind].
  destruct (w_word c11 (2 * N + 2 * (N + 1)) (3 * N + 2 * (N + 1)) (k2 + k3 + k8 + k11)) as (c12 & k12 & -> & (Lc12 & Wc12 & V12) & (_ & R12)); [auto; try lia..|hd V12]. cbn [bind].
  specialize (R12 ltac:(lia)). rewrite sword_chk_ok by lia. cbn [bind].
  destruct (w_word c12 (3 * N + 2 * (N + 1)) (length c12) (k7 + k9 + k12)) as (c13 & k13 & -> & (Lc13 & Wc13 & V13) & (R13 & _)); [auto; try lia..|hd V13]. cbn [bind].
  rewrite sword_chk_ok by lia. cbn [bind].
  assert (mul_post c c13 s (a0 ++ a1 ++ a2) (b0 ++ b1 ++ b2) (k4 + k13)) as P.
  { unfold mul_post, upd_post. split; [congruence|]. split; [auto|]. unfold hid in *.
    replace (length c12) with (length c) in V13 by congruence. replace (length c3) with (length c) in V4 by congruence.
    rewrite !val_app, La0, La1, Lb0, Lb1. rewrite <- Ex0, <- Ex1, <- Ex2, <- Ey0, <- Ey1, <- Ey2.
    rewrite <- Ex0, <- Ey0 in Vt1. rewrite <- Ex2, <- Ey2 in Vci.
    rewrite sign_val_neg in *. rewrite Vt1 in *. rewrite Vci in *. rewrite Vt2 in *. rewrite Vt1c in *. rewrite Vt2c in *.
    rewrite Bn_0 in V1.
    replace (Bn (4 * N)) with (X * X * (X * X)) in * by (unfold X; rewrite <- !Bn_add; f_equal; lia).
    replace (Bn (3 * N)) with (X * X * X) in * by (unfold X; rewrite <- !Bn_add; f_equal; lia).
    rewrite B2 in *. fold X in V5, V6. fold X.
    remember (sign_val s) as z eqn:Ez.
    clear - V1 V2 V3 V4 V5 V6 V7 V8 V9 V10 V11 V12 V13. lia. }
  pose proof (mul_post_carry c c13 s (a0 ++ a1 ++ a2) (b0 ++ b1 ++ b2) (k4 + k13) Wc) as RC.
  rewrite check_true.
  - do 2 eexists; split; [reflexivity|]. exact P.
  - apply Z.leb_le. apply Z.abs_le. apply RC; auto.
    + rewrite !wf_app; auto.
    + rewrite !wf_app; auto.
    + rewrite !app_length. lia.
Qed.

End MulProofs.
