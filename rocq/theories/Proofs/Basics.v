(** Elementary lemmas and tactics about words and slices. *)
From Coq Require Export Lia ZifyBool ZifyNat ZifyN ZifyClasses Arith.
From Verif Require Export Model.Base Model.Words Spec.Val.

#[export] Unset Lia Cache.
#[export] Unset Nia Cache.

(** [lia] knowing about division and modulo. *)
Ltac dlia := zify; Z.div_mod_to_equations; lia.

Arguments Z.mul : simpl never.
Arguments Z.add : simpl never.
Arguments Z.sub : simpl never.
Arguments Z.pow : simpl never.
Arguments Z.modulo : simpl never.
Arguments Z.div : simpl never.
Arguments Z.leb : simpl never.
Arguments Z.ltb : simpl never.
Arguments Z.eqb : simpl never.
Arguments Z.compare : simpl never.
Arguments Z.of_nat : simpl never.
Arguments B : simpl never.
Arguments Bn : simpl never.

Ltac dmatch :=
  match goal with
  | |- context [match ?x with _ => _ end] => destruct x eqn:?
  end.

Ltac inv H := inversion H; subst; clear H.

(** Multiply an equation by [B]. *)
Ltac mulB H := apply (f_equal (Z.mul B)) in H.

Lemma mul_range x y p q : 0 <= x < p -> 0 <= y < q -> 0 <= x * y < p * q.
Proof.
  intros Hx Hy. split; [apply Z.mul_nonneg_nonneg; lia|].
  apply Z.mul_lt_mono_nonneg; lia.
Qed.
Lemma mul_le_l x y c : 0 <= c -> x <= y -> c * x <= c * y.
Proof. intros. apply Z.mul_le_mono_nonneg_l; auto. Qed.
Lemma mul_lt_l x y c : 0 < c -> x < y -> c * x < c * y.
Proof. intros. apply Z.mul_lt_mono_pos_l; auto. Qed.
Lemma mul_lt_cancel x y c : 0 < c -> c * x < c * y -> x < y.
Proof. intros. apply Z.mul_lt_mono_pos_l with c; auto. Qed.
Lemma mul_le_cancel x y c : 0 < c -> c * x <= c * y -> x <= y.
Proof. intros. apply Z.mul_le_mono_pos_l with c; auto. Qed.

(** [mle c x y] adds [c * x <= c * y], [mlt] the strict version. *)
Tactic Notation "mle" constr(c) constr(x) constr(y) :=
  assert (c * x <= c * y) by (apply mul_le_l; lia).
Tactic Notation "mlt" constr(c) constr(x) constr(y) :=
  assert (c * x < c * y) by (apply mul_lt_l; lia).
Tactic Notation "mnn" constr(x) constr(y) :=
  assert (0 <= x * y) by (apply Z.mul_nonneg_nonneg; lia).

(** [nia] with a limit. *)
Ltac tnia := timeout 60 nia.

Lemma bind_Ok {S T} (m : res S) (k : S -> res T) y :
  bind m k = Ok y -> exists x, m = Ok x /\ k x = Ok y.
Proof. destruct m; simpl; intros; [eauto|discriminate]. Qed.

Lemma check_true {T} b (k : res T) : b = true -> (check b ;; k) = k.
Proof. intros ->; reflexivity. Qed.

Section Basics.
Context {A : Arch}.
Context {AOK : ArchOk A}.

Lemma wbits_cases : wbits = 16 \/ wbits = 32 \/ wbits = 64.
Proof. apply AOK. Qed.
Lemma ubits_cases : ubits = 16 \/ ubits = 32 \/ ubits = 64.
Proof. apply AOK. Qed.
Lemma vec_cap_ge n : 0 <= n -> n <= vec_cap n.
Proof. apply AOK. Qed.
Lemma wbits_ge : 16 <= wbits <= 64.
Proof. destruct wbits_cases as [H|[H|H]]; rewrite H; lia. Qed.
Lemma ubits_ge : 16 <= ubits <= 64.
Proof. destruct ubits_cases as [H|[H|H]]; rewrite H; lia. Qed.

Lemma B_ge : 65536 <= B.
Proof. unfold B. change 65536 with (2^16). apply Z.pow_le_mono_r; [lia|]. apply wbits_ge. Qed.
Lemma B_pos : 0 < B.
Proof. pose proof B_ge; lia. Qed.
Lemma B_even : B = 2 * 2 ^ (wbits - 1).
Proof. unfold B. rewrite <- Z.pow_succ_r by (pose proof wbits_ge; lia). f_equal; lia. Qed.
Lemma B_is_pow : B = 2 ^ wbits. Proof. reflexivity. Qed.

Lemma Bn_0 : Bn 0 = 1. Proof. reflexivity. Qed.
Lemma Bn_S n : Bn (S n) = B * Bn n.
Proof. unfold Bn. rewrite Nat2Z.inj_succ, Z.pow_succ_r by lia. reflexivity. Qed.
Lemma Bn_1 : Bn 1 = B. Proof. rewrite Bn_S, Bn_0; lia. Qed.
Lemma Bn_pos n : 0 < Bn n.
Proof. unfold Bn. apply Z.pow_pos_nonneg; [apply B_pos | lia]. Qed.
Lemma Bn_ge1 n : 1 <= Bn n.
Proof. pose proof (Bn_pos n); lia. Qed.
Lemma Bn_add n m : Bn (n + m) = Bn n * Bn m.
Proof. unfold Bn. rewrite Nat2Z.inj_add, Z.pow_add_r by lia. reflexivity. Qed.
Lemma Bn_le n m : (n <= m)%nat -> Bn n <= Bn m.
Proof. intros. unfold Bn. apply Z.pow_le_mono_r; [apply B_pos | lia]. Qed.
Lemma Bn_lt n m : (n < m)%nat -> Bn n < Bn m.
Proof. intros. unfold Bn. apply Z.pow_lt_mono_r; [pose proof B_ge|..]; lia. Qed.
Lemma Bn_pow2 n : Bn n = 2 ^ (wbits * Z.of_nat n).
Proof. unfold Bn, B. rewrite <- Z.pow_mul_r; [reflexivity| pose proof wbits_ge; lia | lia]. Qed.
Lemma Bn_inj_lt n m : Bn n < Bn m -> (n < m)%nat.
Proof. intros H. destruct (Nat.lt_ge_cases n m) as [|L]; auto. apply Bn_le in L; lia. Qed.

Lemma val_nil : val [] = 0. Proof. reflexivity. Qed.
Lemma val_cons w t : val (w :: t) = w + B * val t. Proof. reflexivity. Qed.

Lemma wf_nil : wf []. Proof. constructor. Qed.
Lemma wf_cons w t : wf (w :: t) <-> 0 <= w < B /\ wf t.
Proof. unfold wf, word_ok; split; [intros H; inv H; auto | intros [? ?]; constructor; auto]. Qed.
Lemma wf_app a b : wf (a ++ b) <-> wf a /\ wf b.
Proof. apply Forall_app. Qed.
Lemma wf_firstn n a : wf a -> wf (firstn n a).
Proof. revert n; induction a as [|x a IH]; intros [|n] H; simpl; auto using wf_nil.
  apply wf_cons in H as [? ?]; apply wf_cons; auto. Qed.
Lemma wf_skipn n a : wf a -> wf (skipn n a).
Proof. revert n; induction a as [|x a IH]; intros [|n] H; simpl; auto using wf_nil.
  apply wf_cons in H as [? ?]; auto. Qed.
Lemma wf_repeat0 n : wf (repeat 0 n).
Proof. induction n; simpl; [apply wf_nil|]. apply wf_cons; split; auto. pose proof B_pos; lia. Qed.
Lemma wf_nth ws i : wf ws -> 0 <= nth i ws 0 < B.
Proof. intros H. destruct (Nat.lt_ge_cases i (length ws)).
  - unfold wf in H. rewrite Forall_forall in H. apply H. apply nth_In; auto.
  - rewrite nth_overflow by auto. pose proof B_pos; lia. Qed.
Lemma wf_rev ws : wf ws -> wf (rev ws).
Proof. apply Forall_rev. Qed.
Lemma wf_upd i v ws : wf ws -> 0 <= v < B -> wf (upd i v ws).
Proof. revert i; induction ws as [|x ws IH]; intros [|i] H Hv; simpl; auto;
  apply wf_cons in H as [? ?]; apply wf_cons; auto. Qed.

Lemma val_bound ws : wf ws -> 0 <= val ws < Bn (length ws).
Proof.
  induction ws as [|w t IH]; intros H.
  - simpl. rewrite Bn_0; lia.
  - apply wf_cons in H as [Hw Ht]. specialize (IH Ht). simpl length. rewrite Bn_S, val_cons. nia.
Qed.
Lemma val_nonneg ws : wf ws -> 0 <= val ws.
Proof. intros H; apply val_bound in H; lia. Qed.
Lemma val_app a b : val (a ++ b) = val a + Bn (length a) * val b.
Proof. induction a as [|w t IH]; simpl.
  - rewrite Bn_0; lia.
  - rewrite IH, Bn_S; ring. Qed.
Lemma val_repeat0 n : val (repeat 0 n) = 0.
Proof. induction n; simpl; lia. Qed.
Lemma val_single w : val [w] = w.
Proof. simpl; lia. Qed.
Lemma val_firstn_skipn n ws : (n <= length ws)%nat ->
  val ws = val (firstn n ws) + Bn n * val (skipn n ws).
Proof. intros. rewrite <- (firstn_skipn n ws) at 1. rewrite val_app, firstn_length_le by auto. reflexivity. Qed.
Lemma val_zero_iff ws : wf ws -> (val ws = 0 <-> Forall (fun w => w = 0) ws).
Proof.
  induction ws as [|w t IH]; intros H; simpl; [split; auto|].
  apply wf_cons in H as [Hw Ht]. pose proof (val_nonneg _ Ht). pose proof B_ge. specialize (IH Ht).
  split.
  - intros E. assert (0 <= B * val t) by (apply Z.mul_nonneg_nonneg; lia).
    assert (w = 0) by lia. assert (B * val t = 0) as E2 by lia. apply Z.mul_eq_0 in E2.
    constructor; [assumption|]. apply IH. lia.
  - intros E; inv E. rewrite (proj2 IH) by auto. lia.
Qed.

Lemma mod_eq a b m q : 0 <= a < m -> b = a + m * q -> b mod m = a.
Proof. intros. symmetry. apply Z.mod_unique_pos with q; lia. Qed.
Lemma div_eq a b m q : 0 <= a < m -> b = a + m * q -> b / m = q.
Proof. intros. symmetry. apply Z.div_unique_pos with a; lia. Qed.

(** Unique decomposition. *)
Lemma decomp a b c d m : 0 <= a < m -> 0 <= c < m -> a + m * b = c + m * d -> a = c /\ b = d.
Proof.
  intros Ha Hc E. split.
  - rewrite <- (mod_eq a (a + m * b) m b), <- (mod_eq c (c + m * d) m d); auto. congruence.
  - rewrite <- (div_eq a (a + m * b) m b), <- (div_eq c (c + m * d) m d); auto. congruence.
Qed.

Lemma val_inj a b : wf a -> wf b -> length a = length b -> val a = val b -> a = b.
Proof.
  revert b; induction a as [|x a IH]; intros [|y b] Ha Hb Hl Hv; simpl in *; try discriminate; auto.
  apply wf_cons in Ha as [Hx Ha]. apply wf_cons in Hb as [Hy Hb].
  destruct (decomp x (val a) y (val b) B) as [-> E]; auto. f_equal. apply IH; auto.
Qed.

Lemma length_upd {T} i (v : T) l : length (upd i v l) = length l.
Proof. revert i; induction l; intros [|i]; simpl; auto. Qed.
Lemma nth_upd_eq {T} i (v d : T) l : (i < length l)%nat -> nth i (upd i v l) d = v.
Proof. revert i; induction l; intros [|i] H; simpl in *; auto; try lia. apply IHl; lia. Qed.
Lemma nth_upd_neq {T} i j (v d : T) l : i <> j -> nth j (upd i v l) d = nth j l d.
Proof. revert i j; induction l; intros [|i] [|j] H; simpl in *; auto; try lia. Qed.
Lemma val_upd i v ws : (i < length ws)%nat ->
  val (upd i v ws) = val ws + (v - nth i ws 0) * Bn i.
Proof. revert i; induction ws as [|x ws IH]; intros [|i] H; simpl in *; try lia.
  - rewrite Bn_0; lia.
  - rewrite IH by lia. rewrite Bn_S. ring. Qed.

Lemma split_at_Ok {T} n (l : list T) : (n <= length l)%nat ->
  split_at n l = Ok (firstn n l, skipn n l).
Proof. unfold split_at. intros. rewrite (proj2 (Nat.leb_le _ _)) by auto. reflexivity. Qed.
Lemma slice_to_Ok {T} n (l : list T) : (n <= length l)%nat -> slice_to n l = Ok (firstn n l).
Proof. unfold slice_to. intros. rewrite (proj2 (Nat.leb_le _ _)) by auto. reflexivity. Qed.
Lemma slice_from_Ok {T} n (l : list T) : (n <= length l)%nat -> slice_from n l = Ok (skipn n l).
Proof. unfold slice_from. intros. rewrite (proj2 (Nat.leb_le _ _)) by auto. reflexivity. Qed.

Lemma list_split {T} n (l : list T) : (n <= length l)%nat ->
  exists a b, l = a ++ b /\ length a = n /\ length b = (length l - n)%nat /\
    firstn n l = a /\ skipn n l = b.
Proof. intros. exists (firstn n l), (skipn n l).
  rewrite firstn_skipn, firstn_length_le, skipn_length by auto. auto. Qed.

Lemma split_at_app {T} n (a b : list T) : length a = n -> split_at n (a ++ b) = Ok (a, b).
Proof.
  intros <-. rewrite split_at_Ok by (rewrite app_length; lia).
  rewrite firstn_app, skipn_app, Nat.sub_diag, firstn_all, skipn_all. simpl.
  rewrite app_nil_r. reflexivity.
Qed.

Lemma testbit_small x n k : 0 <= x < 2 ^ n -> n <= k -> Z.testbit x k = false.
Proof.
  intros Hx Hk. destruct (Z.eq_dec x 0) as [->|]; [apply Z.bits_0|].
  apply Z.bits_above_log2; [lia|]. apply Z.lt_le_trans with n; [|lia].
  apply Z.log2_lt_pow2; lia.
Qed.

Lemma lor_add a b : Z.land a b = 0 -> Z.lor a b = a + b.
Proof. intros H. rewrite <- Z.lxor_lor by auto. symmetry. apply Z.add_nocarry_lxor; auto. Qed.

Lemma lor_disjoint a b n : 0 <= n -> 0 <= a < 2 ^ n -> Z.lor a (b * 2 ^ n) = a + b * 2 ^ n.
Proof.
  intros Hn Ha. apply lor_add. apply Z.bits_inj'. intros k Hk. rewrite Z.land_spec, Z.bits_0.
  destruct (Z.lt_ge_cases k n).
  - rewrite Z.mul_pow2_bits_low by lia. apply andb_false_r.
  - rewrite (testbit_small a n) by lia. reflexivity.
Qed.

Lemma double_word_val lo hi : 0 <= lo < B -> double_word lo hi = lo + B * hi.
Proof.
  intros Hl. unfold double_word, extend_word. rewrite Z.shiftl_mul_pow2 by (pose proof wbits_ge; lia).
  rewrite lor_disjoint; [unfold B; ring | pose proof wbits_ge; lia | apply Hl].
Qed.

Lemma split_double_word_val dw lo hi : 0 <= dw < B * B -> split_double_word dw = (lo, hi) ->
  dw = lo + B * hi /\ 0 <= lo < B /\ 0 <= hi < B.
Proof.
  intros Hd E. unfold split_double_word in E. inv E.
  rewrite Z.shiftr_div_pow2 by (pose proof wbits_ge; lia). rewrite <- B_is_pow.
  pose proof B_pos. assert (0 <= dw / B < B) by (split; [apply Z.div_pos; lia | apply Z.div_lt_upper_bound; lia]).
  rewrite (Z.mod_small (dw / B)) by lia.
  pose proof (Z.div_mod dw B). pose proof (Z.mod_pos_bound dw B). lia.
Qed.
End Basics.
