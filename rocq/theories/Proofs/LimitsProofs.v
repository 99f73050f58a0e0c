(** Limits, compile-time assertions and the growth of buffers. *)
From Coq Require Import ZArith List Lia.
From Verif Require Import Model.Base Model.Words Model.Buffer Model.UBig Model.Mul Model.Div Model.Serde Model.Radix Spec.Val Spec.Num Spec.Growth
  Proofs.Basics Proofs.BufferProofs Proofs.Limits.
Import ListNotations.
Open Scope Z_scope.

Section Limits.
Context {A : Arch} {AOK : ArchOk A}.

Theorem max_len_limits :
  Z.even MAX_LEN = true /\ 1022 <= MAX_LEN /\ MAX_LEN * wbits <= 2 ^ ubits - 1 /\ 16 * MAX_LEN <= 2 ^ ubits - 1 /\ MAX_LEN <= 2 ^ NTT_MAX_ORDER.
Proof.
  unfold MAX_LEN, NTT_MAX_ORDER, USIZE_MAX.
  destruct wbits_cases as [-> | [-> | ->]]; destruct ubits_cases as [-> | [-> | ->]];
    vm_compute; repeat split; try reflexivity; intros; discriminate.
Qed.

Theorem max_len_largest (l : Z) : Z.even l = true -> l * wbits <= 2 ^ ubits - 1 -> l <= 2 ^ NTT_MAX_ORDER -> l <= MAX_LEN.
Proof.
  intros E H1 H2. unfold MAX_LEN. set (m := Z.min _ _). pose proof wbits_ge as W. apply Z.even_spec in E as [k ->].
  assert (L : 2 * k <= m).
  { apply Z.min_glb; [apply Z.div_le_lower_bound; unfold USIZE_MAX; lia|]. destruct (NTT_MAX_ORDER <? ubits); [exact H2|].
    unfold USIZE_MAX. assert (0 < 2 ^ ubits) by (destruct ubits_cases as [-> | [-> | ->]]; reflexivity). nia. }
  pose proof (Z.div_mod m 2 ltac:(lia)). pose proof (Z.mod_pos_bound m 2 ltac:(lia)). lia.
Qed.

Theorem const_asserts :
  64 mod wbits = 0 /\ Z.of_nat WORDS_PER_U64 - 1 <= MAX_CAPACITY - MAX_LEN /\ 1 <= MAX_CAPACITY - MAX_LEN /\ MAX_CAPACITY <= 2 ^ ubits - 1 /\
  MAX_LEN mod 2 = 0 /\ (3 <= DIV_MAX_LEN_SIMPLE)%nat /\
  (MAX_LEN_SIMPLE <= CHUNK_LEN)%nat /\ (KARATSUBA_MIN_LEN <= MAX_LEN_SIMPLE + 1)%nat /\ (TOOM_3_MIN_LEN <= MAX_LEN_KARATSUBA + 1)%nat.
Proof.
  unfold WORDS_PER_U64, MAX_CAPACITY. pose proof MAX_LEN_facts as (M1 & M2 & M3). pose proof MAX_LEN_usize.
  split; [destruct wbits_cases as [-> | [-> | ->]]; reflexivity|].
  split. { assert (Z.of_nat (Z.to_nat (64 / wbits)) <= 4) by (destruct wbits_cases as [-> | [-> | ->]]; discriminate). lia. }
  split; [lia|]. split; [lia|]. split; [exact M3|]. unfold DIV_MAX_LEN_SIMPLE, MAX_LEN_SIMPLE, CHUNK_LEN, KARATSUBA_MIN_LEN, TOOM_3_MIN_LEN, MAX_LEN_KARATSUBA.
  repeat split; apply Nat.leb_le; reflexivity.
Qed.

Theorem supported v : 0 <= v < 2 ^ MAX_BIT_LEN <-> exists u, ubig_ok u /\ uval u = v.
Proof.
  assert (E : 2 ^ MAX_BIT_LEN = MAXV) by (unfold MAXV, MAX_BIT_LEN; f_equal; lia). rewrite E. split; [apply representable|].
  intros (u & Hu & <-). apply ubig_ok_val. exact Hu.
Qed.

(** ** Growth *)

Definition fresh (b : Buffer) (n : Z) : Prop := 0 <= n <= MAX_CAPACITY /\ cap b = Z.min (n + n / 8 + 2) MAX_CAPACITY.

Lemma reallocate_fresh b n b' : (forall k, 0 <= k -> vec_cap k = k) -> 0 <= n -> reallocate b n = Ok b' -> fresh b' n /\ words b' = words b /\ blen b <= n.
Proof.
  intros V Hn. unfold reallocate, assert. destruct (Z.leb_spec (blen b) n) as [L|]; [|discriminate]. cbn [bind].
  unfold allocate. destruct (Z.ltb_spec MAX_CAPACITY n) as [|L2]; [discriminate|]. unfold default_capacity, assert.
  destruct (Z.leb_spec n MAX_CAPACITY) as [_|]; [|lia]. cbn [bind]. unfold buffer_clone_from, assert. cbn [cap].
  pose proof (Z.div_pos n 8 ltac:(lia) ltac:(lia)). pose proof MAX_LEN_ge. unfold MAX_CAPACITY in *.
  rewrite V by lia. destruct (len (words b) <=? _); [|discriminate]. intros E. injection E as <-. cbn [words cap].
  split; [|split; [reflexivity|exact L]]. unfold fresh. cbn [cap]. unfold MAX_CAPACITY. lia.
Qed.

Lemma change_spec b c b' m n k : (forall k, 0 <= k -> vec_cap k = k) -> fresh b n -> blen b <= cap b -> Z.abs (blen b - n) <= k ->
  apply_change b c = Ok (b', m) -> exists n' k', fresh b' n' /\ blen b' <= cap b' /\ Z.abs (blen b' - n') <= k' /\ m + 9 * k' <= 9 * k + 9.
Proof.
  intros V F Lb K. pose proof (blen_nonneg b) as L0. pose proof (Z.div_mod n 8 ltac:(lia)) as D8. pose proof (Z.mod_pos_bound n 8 ltac:(lia)) as M8.
  destruct c as [w|]; cbn [apply_change].
  - unfold push_may_reallocate, usize_chk, checked. destruct ((0 <=? _) && _); [|discriminate]. cbn [bind]. unfold ensure_capacity.
    destruct (Z.ltb_spec (cap b) (blen b + 1)) as [L|G].
    + destruct (reallocate b (blen b + 1)) as [b1|] eqn:R; [|discriminate]. cbn [bind]. apply reallocate_fresh in R as (F1 & W1 & _); [|exact V|lia].
      unfold push, assert. destruct (blen b1 <? cap b1) eqn:LT; [|discriminate]. cbn [bind cap]. intros E. injection E as <- <-.
      assert (EL : blen b1 = blen b) by (unfold blen; rewrite W1; reflexivity). apply Z.ltb_lt in LT.
      exists (blen b + 1), 0. unfold fresh in *. cbn [cap]. split; [exact F1|]. unfold blen in *. cbn [words]. rewrite W1, len_app. change (len [w]) with 1.
      rewrite W1 in LT. split; [lia|]. split; [lia|]. destruct F as [F0 F2], F1 as [F1 F3]. destruct (cap b1 =? cap b); lia.
    + cbn [bind]. unfold push, assert. destruct (blen b <? cap b) eqn:LT; [|discriminate]. cbn [bind cap]. rewrite Z.eqb_refl. intros E. injection E as <- <-.
      exists n, (k + 1). split; [exact F|]. unfold blen in *. cbn [words cap]. rewrite len_app. change (len [w]) with 1. lia.
  - unfold truncate, assert. destruct (_ <=? length (words b))%nat; [|discriminate]. cbn [bind].
    set (t := mkBuffer (firstn (length (words b) - 1) (words b)) (cap b)).
    assert (LT : blen b - 1 <= blen t <= blen b). { unfold t, blen, len in *. cbn [words]. rewrite firstn_length. lia. }
    unfold shrink, max_compact_capacity, assert. pose proof (blen_nonneg t) as T0.
    destruct (blen t <=? MAX_CAPACITY); [|discriminate]. cbn [bind]. change (cap t) with (cap b).
    pose proof (Z.div_mod (blen t) 4 ltac:(lia)) as D4. pose proof (Z.mod_pos_bound (blen t) 4 ltac:(lia)) as M4.
    destruct (Z.ltb_spec (Z.min (blen t + blen t / 4 + 4) MAX_CAPACITY) (cap b)) as [L|G].
    + destruct (reallocate t (blen t)) as [b1|] eqn:R; [|discriminate]. cbn [bind]. apply reallocate_fresh in R as (F1 & W1 & _); [|exact V|lia].
      intros E. injection E as <- <-. assert (EL : blen b1 = blen t) by (unfold blen; rewrite W1; reflexivity).
      exists (blen t), 0. unfold fresh in *. split; [exact F1|]. rewrite EL. pose proof (Z.div_pos (blen t) 8 ltac:(lia) ltac:(lia)). split; [lia|]. split; [lia|].
      destruct (cap b1 =? cap b); lia.
    + cbn [bind]. change (cap t) with (cap b). rewrite Z.eqb_refl. intros E. injection E as <- <-. exists n, (k + 1). split; [exact F|]. change (cap t) with (cap b). lia.
Qed.

Lemma changes_spec cs : (forall k, 0 <= k -> vec_cap k = k) -> forall b b' m n k, fresh b n -> blen b <= cap b -> Z.abs (blen b - n) <= k ->
  apply_changes b cs = Ok (b', m) -> m <= 9 * k + 9 * Z.of_nat (length cs).
Proof.
  intros V. induction cs as [|c cs IH]; intros b b' m n k F L K; cbn [apply_changes].
  - intros E. injection E as <- <-. cbn [length]. lia.
  - destruct (apply_change b c) as [[b1 m1]|] eqn:E1; [|discriminate]. cbn [bind].
    destruct (apply_changes b1 cs) as [[b2 m2]|] eqn:E2; [|discriminate]. cbn [bind]. intros E. injection E as <- <-.
    destruct (change_spec b c b1 m1 n k V F L K E1) as (n1 & k1 & F1 & L1 & K1 & M1). specialize (IH b1 b2 m2 n1 k1 F1 L1 K1 E2). cbn [length]. lia.
Qed.

Theorem growth_amortized (ws : list Z) (b b' : Buffer) (cs : list change) (m : Z) : (forall k, 0 <= k -> vec_cap k = k) ->
  allocate (len ws) = Ok b -> apply_changes (mkBuffer ws (cap b)) cs = Ok (b', m) -> m <= 9 * Z.of_nat (length cs).
Proof.
  intros V. unfold allocate. destruct (Z.ltb_spec MAX_CAPACITY (len ws)) as [|L]; [discriminate|]. unfold default_capacity, assert.
  destruct (Z.leb_spec (len ws) MAX_CAPACITY) as [_|]; [|lia]. cbn [bind]. intros E. injection E as <-. cbn [cap].
  pose proof (len_nonneg ws) as L0. pose proof (Z.div_pos (len ws) 8 ltac:(lia) ltac:(lia)). pose proof MAX_LEN_ge.
  rewrite V by (unfold MAX_CAPACITY; lia). intros R.
  apply (changes_spec cs V _ _ _ (len ws) 0) in R; [lia| | |].
  - split; [lia|reflexivity].
  - unfold blen. cbn [words cap]. lia.
  - unfold blen. cbn [words]. lia.
Qed.
(** * What each operation on buffers does with the capacity *)
Lemma extend_full ws : forall b, blen b <= cap b -> cap b < blen b + len ws -> exists p, extend b ws = Panic p.
Proof.
  induction ws as [|w t IH]; intros b L H; cbn [extend].
  - change (len []) with 0 in H. lia.
  - change (w :: t) with ([w] ++ t) in H. rewrite len_app in H. change (len [w]) with 1 in H.
    unfold push. destruct (Z.ltb_spec (blen b) (cap b)) as [C|C]; cbn [assert bind]; [|eauto].
    apply IH; unfold blen in *; cbn [words cap]; rewrite len_app; change (len [w]) with 1; lia.
Qed.

Lemma len_repeat n : len (repeat 0 n) = Z.of_nat n.
Proof. unfold len. rewrite repeat_length. reflexivity. Qed.

Theorem appends_in_place (b : Buffer) (w : Z) (n : nat) (s : list Z) (r : res Buffer) (ws : list Z) :
  blen b <= cap b ->
  In (r, ws) [(push b w, words b ++ [w]); (push_zeros b n, words b ++ repeat 0 n); (push_zeros_front b n, repeat 0 n ++ words b);
              (extend b s, words b ++ s)] ->
  (len ws <= cap b -> r = Ok (mkBuffer ws (cap b))) /\ (cap b < len ws -> exists p, r = Panic p).
Proof.
  intros L [E|[E|[E|[E|[]]]]]; injection E as <- <-; rewrite len_app.
  - change (len [w]) with 1. unfold push, blen in *. split; intros H.
    + rewrite (proj2 (Z.ltb_lt _ _)) by lia. reflexivity.
    + rewrite (proj2 (Z.ltb_ge _ _)) by lia. eexists. reflexivity.
  - rewrite len_repeat. unfold push_zeros, blen in *. split; intros H.
    + rewrite (proj2 (Z.leb_le _ _)) by lia. reflexivity.
    + rewrite (proj2 (Z.leb_gt _ _)) by lia. eexists. reflexivity.
  - rewrite len_repeat. unfold push_zeros_front, blen in *. split; intros H.
    + rewrite (proj2 (Z.leb_le _ _)) by lia. reflexivity.
    + rewrite (proj2 (Z.leb_gt _ _)) by lia. eexists. reflexivity.
  - split; intros H.
    + destruct b as [bs c]. cbn [words cap] in *. apply extend_spec. exact H.
    + apply extend_full; [exact L|exact H].
Qed.

Theorem removals_in_place (b : Buffer) (n : nat) (r : res Buffer) (ws : list Z) :
  In (r, ws) [(truncate b n, firstn n (words b)); (erase_front b n, skipn n (words b))] ->
  (Z.of_nat n <= blen b -> r = Ok (mkBuffer ws (cap b))) /\ (blen b < Z.of_nat n -> exists p, r = Panic p).
Proof.
  intros [E|[E|[]]]; injection E as <- <-; unfold truncate, erase_front, blen, len; (split; intros H;
    [rewrite (proj2 (Nat.leb_le _ _)) by lia; reflexivity|rewrite (proj2 (Nat.leb_gt _ _)) by lia; eexists; reflexivity]).
Qed.

Lemma max_cap_small n c : (forall k, 0 <= k -> vec_cap k = k) -> 0 <= n -> n <= c <= max_cap n -> n <= c <= n + n / 4 + 4.
Proof. intros V N. unfold max_cap. pose proof MAX_LEN_ge. rewrite V by dlia. dlia. Qed.

Theorem reallocations (b source : Buffer) (n : Z) (r : res Buffer) (ws : list Z) (low high : Z) :
  (forall k, 0 <= k -> vec_cap k = k) -> blen b <= cap b -> blen source <= cap source -> 0 <= n ->
  In (r, (ws, (low, high)))
    [(allocate n, ([], (n, n + n / 4 + 4)));
     (buffer_clone source, (words source, (blen source, blen source + blen source / 4 + 4)));
     (resizing_clone_from b source, (words source, (blen source, blen source + blen source / 4 + 4)));
     (shrink b, (words b, (blen b, blen b + blen b / 4 + 4)));
     (ensure_capacity b n, (words b, (Z.max n (cap b), Z.max (n + n / 4 + 4) (cap b))))] ->
  (low <= MAX_CAPACITY -> exists c, r = Ok (mkBuffer ws c) /\ low <= c <= high).
Proof.
  intros V L LS N I H. pose proof (blen_nonneg b) as P1. pose proof (blen_nonneg source) as P2.
  assert (CL : blen source <= MAX_CAPACITY -> exists c, buffer_clone source = Ok (mkBuffer (words source) c) /\ blen source <= c <= blen source + blen source / 4 + 4).
  { intros M. unfold buffer_clone. destruct (allocate_spec (blen source) (conj P2 M)) as (c & -> & C). cbn [bind].
    unfold buffer_clone_from. cbn [cap]. change (len (words source)) with (blen source). rewrite check_true by lia.
    exists c. split; [reflexivity|]. apply max_cap_small; [exact V|lia..]. }
  destruct I as [E|[E|[E|[E|[E|[]]]]]]; injection E as <- <- <- <-.
  - destruct (allocate_spec n (conj N H)) as (c & -> & C). exists c. split; [reflexivity|]. apply max_cap_small; [exact V|lia..].
  - apply CL, H.
  - unfold resizing_clone_from, max_compact_capacity. destruct (Z.leb_spec (blen source) (cap b)) as [C|C].
    + rewrite check_true by lia. cbn [bind andb]. destruct (Z.leb_spec (cap b) (Z.min (blen source + blen source / 4 + 4) MAX_CAPACITY)) as [C'|C'].
      * unfold buffer_clone_from. change (len (words source)) with (blen source). rewrite check_true by lia. exists (cap b). split; [reflexivity|lia].
      * apply CL, H.
    + cbn [bind andb]. apply CL, H.
  - unfold shrink, max_compact_capacity. rewrite check_true by lia. cbn [bind].
    destruct (Z.ltb_spec (Z.min (blen b + blen b / 4 + 4) MAX_CAPACITY) (cap b)) as [C|C].
    + destruct (reallocate_spec b (blen b) (conj (Z.le_refl _) H)) as (c & -> & C'). exists c. split; [reflexivity|]. apply max_cap_small; [exact V|lia..].
    + exists (cap b). split; [destruct b; reflexivity|lia].
  - unfold ensure_capacity. destruct (Z.ltb_spec (cap b) n) as [C|C].
    + assert (Q : blen b <= n <= MAX_CAPACITY) by lia. destruct (reallocate_spec b n Q) as (c & -> & C'). exists c. split; [reflexivity|].
      pose proof (max_cap_small n c V). lia.
    + exists (cap b). split; [destruct b; reflexivity|lia].
Qed.

End Limits.
