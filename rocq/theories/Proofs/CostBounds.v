(** How high the counter of Model/Cost.v gets. *)
From Coq Require Import Lia.
From Verif Require Import Model.Base Model.Words Model.Add Model.Shift Model.FastDivide Model.DivWord Model.Memory
  Model.Mul Model.Cost Model.Buffer Spec.Val.
From Verif Require Import Proofs.Basics Proofs.CostProofs.

Section Steps.
Context {A : Arch}.

Lemma costs_bind_free {S T} (m : res S) (k : S -> counted T) N P :
  (forall v, m = Ok v -> costs (k v) N P) -> costs (cbind (free m) k) N P.
Proof. intros K. apply (costs_bind _ _ 0 N (fun x => m = Ok x)); [apply costs_free|]. rewrite Z.sub_0_r. exact K. Qed.

Lemma costs_bind_call {S T} n (m : res S) (k : S -> counted T) N P :
  (forall v, m = Ok v -> costs (k v) (N - (Z.of_nat n + 1)) P) -> costs (cbind (call n m) k) N P.
Proof. intros K. apply (costs_bind _ _ (Z.of_nat n + 1) N (fun x => m = Ok x)); [apply costs_call|exact K]. Qed.

Lemma costs_bind_wcall {R T} i j c (f : list Z -> res (list Z * R)) (k : list Z * R -> counted T) N P :
  (forall w w' r, f w = Ok (w', r) -> length w' = length w) ->
  (forall c' r, length c' = length c -> (i <= j <= length c)%nat -> costs (k (c', r)) (N - (Z.of_nat (j - i) + 1)) P) ->
  costs (cbind (c_window i j c (fun w => call (length w) (f w))) k) N P.
Proof.
  intros F K. eapply costs_bind; [apply (costs_window i j c _ (Z.of_nat (j - i) + 1))|].
  - intros w L G [w' r] E. cbn in *. unfold keeps. cbn. split; [lia|]. eapply F; eauto.
  - intros [c' r] [K1 K2]. unfold keeps in K1. cbn in K1. auto.
Qed.

Lemma costs_bind_wrec {R T} i j c (f : list Z -> counted (list Z * R)) (k : list Z * R -> counted T) X N P :
  (forall w, length w = (j - i)%nat -> (i <= j <= length c)%nat -> costs (f w) X (keeps (length w))) ->
  (forall c' r, length c' = length c -> (i <= j <= length c)%nat -> costs (k (c', r)) (N - X) P) ->
  costs (cbind (c_window i j c f) k) N P.
Proof.
  intros F K. eapply costs_bind; [apply (costs_window i j c _ X F)|].
  intros [c' r] [K1 K2]. unfold keeps in K1. cbn in K1. auto.
Qed.

Lemma costs_bind_keeps {R T} (m : counted (list Z * R)) (k : list Z * R -> counted T) n X N P :
  costs m X (keeps n) -> (forall c' r, length c' = n -> costs (k (c', r)) (N - X) P) -> costs (cbind m k) N P.
Proof. intros M K. eapply costs_bind; [exact M|]. intros [c' r] K1. unfold keeps in K1. cbn in K1. auto. Qed.

Lemma alloc_fill_len n v mem l m : alloc_fill n v mem = Ok (l, m) -> length l = n.
Proof. unfold alloc_fill. destruct (alloc n mem); cbn; [|discriminate]. intros H. injection H as <- _. apply repeat_length. Qed.

Lemma alloc_copy_len l0 mem l m : alloc_copy l0 mem = Ok (l, m) -> length l = length l0.
Proof. unfold alloc_copy. destruct (alloc _ mem); cbn; [|discriminate]. intros H. now injection H as <- _. Qed.

Lemma alloc_copy_fill_len n l0 v mem l m : alloc_copy_fill n l0 v mem = Ok (l, m) -> length l = n.
Proof.
  unfold alloc_copy_fill. intros H. apply check_ok in H. destruct H as [C H]. apply Nat.leb_le in C. destruct (alloc _ mem); cbn in H; [|discriminate].
  injection H as <- _. rewrite app_length, repeat_length. lia.
Qed.

Lemma shl_loop_len ws s : forall c, length (fst (shl_loop ws s c)) = length ws.
Proof.
  induction ws as [|w ws IH]; intros c; [reflexivity|]. cbn [shl_loop]. destruct (split_double_word _) as [x y].
  specialize (IH y). destruct (shl_loop ws s y). cbn in *. lia.
Qed.

Lemma shl_len ws s w' c : shl_in_place ws s = Ok (w', c) -> length w' = length ws.
Proof.
  unfold shl_in_place. intros H. apply check_ok in H. destruct H as [_ H]. destruct (s =? 0); [now injection H as <- _|].
  pose proof (shl_loop_len ws s 0) as L. destruct (shl_loop ws s 0). now injection H as <- _.
Qed.

Lemma shr_loop_len ws s : length (fst (shr_loop ws s)) = length ws.
Proof.
  induction ws as [|w ws IH]; [reflexivity|]. cbn [shr_loop]. destruct (shr_loop ws s). destruct (split_double_word _) as [x y].
  cbn in *. lia.
Qed.

Lemma shr_len ws s w' c : shr_in_place ws s = Ok (w', c) -> length w' = length ws.
Proof.
  unfold shr_in_place. intros H. apply check_ok in H. destruct H as [_ H]. destruct (s =? 0); [now injection H as <- _|].
  pose proof (shr_loop_len ws s) as L. destruct (shr_loop ws s). now injection H as <- _.
Qed.

Lemma fast_div_loop_len ws f : forall r w' c, fast_div_loop ws f r = Ok (w', c) -> length w' = length ws.
Proof.
  induction ws as [|w ws IH]; intros r w' c H; cbn [fast_div_loop] in H; [now injection H as <- _|].
  apply bind_inv in H. destruct H as ([l x] & E & H). apply bind_inv in H. destruct H as ([q y] & E2 & H). injection H as <- _.
  apply IH in E. cbn. lia.
Qed.

Lemma div_by_word_len ws x w' c : div_by_word_in_place ws x = Ok (w', c) -> length w' = length ws.
Proof.
  unfold div_by_word_in_place. intros H. apply check_ok in H. destruct H as [_ H]. destruct ws as [|w ws]; [now injection H as <- _|].
  destruct (is_power_of_two x); [now apply shr_len in H|]. apply bind_inv in H. destruct H as (f & _ & H).
  unfold fast_div_by_word_in_place in H. apply bind_inv in H. destruct H as ([l y] & E & H). apply bind_inv in H. destruct H as ([l2 z] & E2 & H).
  injection H as <- _. apply shl_len in E. apply fast_div_loop_len in E2. lia.
Qed.

End Steps.

Ltac lens := repeat match goal with
  | E : Base.assert _ = Ok _ |- _ => apply assert_ok in E
  | E : sword_chk _ = Ok _ |- _ => clear E
  | E : word_chk _ = Ok _ |- _ => clear E
  | E : split_at _ _ = Ok _ |- _ => apply split_len in E
  | E : slice_to _ _ = Ok _ |- _ => apply slice_to_len in E
  | E : slice_from _ _ = Ok _ |- _ => apply slice_from_len in E
  | E : alloc_fill _ _ _ = Ok _ |- _ => apply alloc_fill_len in E
  | E : alloc_copy _ _ = Ok _ |- _ => apply alloc_copy_len in E
  | E : alloc_copy_fill _ _ _ _ = Ok _ |- _ => apply alloc_copy_fill_len in E
  | E : sub_in_place_with_sign _ _ = Ok _ |- _ => apply sub_sign_len in E
  | E : add_in_place _ _ = Ok _ |- _ => apply add_in_place_len in E
  | E : sub_in_place _ _ = Ok _ |- _ => apply sub_in_place_len in E
  | E : add_same_len_in_place _ _ = Ok _ |- _ => apply add_same_len in E
  | E : sub_same_len_in_place _ _ = Ok _ |- _ => apply sub_same_len in E
  | E : add_signed_same_len_in_place _ _ _ = Ok _ |- _ => apply add_signed_same_len in E
  | E : add_mul_word_same_len_in_place _ _ _ = Ok _ |- _ => apply add_mul_same_len in E
  | E : sub_mul_word_same_len_in_place _ _ _ = Ok _ |- _ => apply sub_mul_same_len in E
  | E : add_mul_word_in_place _ _ _ = Ok _ |- _ => apply add_mul_word_len in E
  | E : mul_word_in_place _ _ = Ok _ |- _ => apply mul_word_len in E
  | E : div_by_word_in_place _ _ = Ok _ |- _ => apply div_by_word_len in E
  | E : shr_in_place _ _ = Ok _ |- _ => apply shr_len in E
  end.

Ltac conjs := repeat match goal with H : _ /\ _ |- _ => destruct H end.
(** Replace the lengths in the goal by what is known about them. *)
Ltac norm := repeat (rewrite ?app_length; cbn [length]; match goal with H : length ?x = _ |- context [length ?x] => rewrite H end);
  rewrite ?app_length; cbn [length].

Ltac ilen := let H := fresh in intros ? ? ? H; first
  [ now apply add_signed_word_len in H | now apply add_signed_same_len in H | now apply add_signed_len in H
  | now apply sub_mul_same_len in H | now apply add_same_len in H | now apply sub_same_len in H ].

Ltac bits := repeat match goal with
  | E : _ && _ = true |- _ => apply andb_prop in E; destruct E
  | E : (_ =? _)%nat = true |- _ => apply Nat.eqb_eq in E
  | E : (_ <=? _)%nat = true |- _ => apply Nat.leb_le in E
  | E : (_ <? _)%nat = true |- _ => apply Nat.ltb_lt in E
  | E : (_ <=? _)%nat = false |- _ => apply Nat.leb_gt in E
  | E : (_ <? _)%nat = false |- _ => apply Nat.ltb_ge in E
  end.

Ltac step := match goal with
  | |- costs (cbind (free _) _) _ _ => apply costs_bind_free;
      let v := fresh "v" in let E := fresh "E" in intros v E;
      match type of v with (_ * _)%type => destruct v as [? ?] | _ => idtac end; cbv beta iota; lens; bits
  | |- costs (cbind (call _ _) _) _ _ => apply costs_bind_call;
      let v := fresh "v" in let E := fresh "E" in intros v E;
      match type of v with (_ * _)%type => destruct v as [? ?] | _ => idtac end; cbv beta iota; lens
  | |- costs (cbind (c_window _ _ _ (fun w => call (length w) _)) _) _ _ => apply costs_bind_wcall; [ilen|];
      let E := fresh "L" in let F := fresh "G" in intros ? ? E F; cbv beta iota
  end.
Ltac steps := repeat step.

Section Mul.
Context {A : Arch}.

(** [rec] takes at most [T] steps for operands of at most [m] words, and keeps the length of the result. *)
Definition bounded (rec : c_mul_fn) (m T : Z) : Prop := forall c s a b mem, Z.of_nat (length a) <= m ->
  costs (rec c s a b mem) T (keeps (length c)).

Lemma karatsuba_costs rec m T n : bounded rec m T -> Z.of_nat n <= 2 * m -> forall c s a b mem, length a = n ->
  costs (c_karatsuba_same_len rec c s a b mem) (3 * T + 12 * Z.of_nat n + 24) (keeps (length c)).
Proof.
  intros R M c s a b mem LA. unfold c_karatsuba_same_len. cbv zeta. rewrite LA.
  assert (D : (2 * ((n + 1) / 2) = n \/ 2 * ((n + 1) / 2) = n + 1)%nat).
  { pose proof (Nat.div_mod (n + 1) 2 ltac:(discriminate)). pose proof (Nat.mod_upper_bound (n + 1) 2 ltac:(discriminate)). lia. }
  set (mid := ((n + 1) / 2)%nat) in *. clearbody mid.
  steps.
  eapply costs_bind_keeps; [apply R; lia|]. intros ? ? ?. cbv beta iota. steps.
  eapply costs_bind_keeps; [apply R; lia|]. intros ? ? ?. cbv beta iota. steps.
  eapply costs_bind_wrec; [intros; apply R; lia|]. intros ? ? ? ?. cbv beta iota. steps.
  conjs. apply costs_ok; [norm; clear - D M; lia|unfold keeps; cbn [fst]; norm; reflexivity].
Qed.

Lemma toom_costs rec m T n : bounded rec m T -> Z.of_nat n + 3 <= 3 * m -> forall c s a b mem, length a = n ->
  costs (c_toom_3_same_len rec c s a b mem) (5 * T + 22 * Z.of_nat n + 140) (keeps (length c)).
Proof.
  intros R M c s a b mem LA. unfold c_toom_3_same_len. cbv zeta. rewrite LA.
  assert (D : (n <= 3 * ((n + 2) / 3) <= n + 2)%nat).
  { pose proof (Nat.div_mod (n + 2) 3 ltac:(discriminate)). pose proof (Nat.mod_upper_bound (n + 2) 3 ltac:(discriminate)). lia. }
  destruct D as [D D']. set (n3 := ((n + 2) / 3)%nat) in *. clearbody n3.
  steps.
  assert (N : (16 <= n)%nat) by assumption.
  eapply costs_bind_keeps; [apply R; conjs; norm; clear - D D' M; lia|]. intros ? ? ?. cbv beta iota. steps.
  eapply costs_bind_keeps; [apply R; conjs; norm; clear - D D' M; lia|]. intros ? ? ?. cbv beta iota. steps.
  eapply costs_bind_keeps; [apply R; conjs; norm; clear - D D' M; lia|]. intros ? ? ?. cbv beta iota. steps.
  eapply costs_bind_keeps; [apply R; conjs; norm; clear - D D' M; lia|]. intros ? ? ?. cbv beta iota. steps.
  eapply costs_bind_keeps; [apply R; conjs; norm; clear - D D' M; lia|]. intros ? ? ?. cbv beta iota. steps.
  match goal with |- costs (cbind ?m _) _ _ => assert (MM : costs m (Z.of_nat (2 * n3 + 2) + 1) (keeps (2 * n3 + 2))) end.
  { destruct (sign_mul _ _); intros [w k] X; cbn [call fst snd] in *; lens; conjs; unfold keeps; cbn [fst]; split; norm; clear - D D' M; lia. }
  eapply costs_bind_keeps; [exact MM|]. clear MM. intros ? ? ?. cbv beta iota. steps.
  conjs. apply costs_ok; [norm; clear - D D' M N; lia|unfold keeps; cbn [fst]; norm; reflexivity].
Qed.

Lemma add_loop_costs b : forall c a k, costs (c_add_mul_chunk_loop c a b k) (len b * (len a + 1)) (keeps (length c)).
Proof.
  induction b as [|m b IH]; intros c a k; cbn [c_add_mul_chunk_loop].
  { apply costs_ok; [unfold len; cbn; lia|reflexivity]. }
  step. step. conjs. destruct l0 as [|x l0]; [apply costs_panic|]. destruct (add_with_carry _ _ _) as [w k'].
  destruct (l1 ++ w :: l0) as [|c0 c1] eqn:C; [apply costs_panic|].
  assert (LC : length (c0 :: c1) = length c). { rewrite <- C. rewrite app_length. cbn [length] in *. lia. }
  eapply costs_bind_keeps; [apply IH|]. intros c' k2 L. cbv beta iota. apply costs_ok.
  - unfold len. cbn [length]. rewrite H. nia.
  - unfold keeps. cbn [fst length] in *. lia.
Qed.

Lemma sub_loop_costs b : forall c a k, costs (c_sub_mul_chunk_loop c a b k) (len b * (len a + 1)) (keeps (length c)).
Proof.
  induction b as [|m b IH]; intros c a k; cbn [c_sub_mul_chunk_loop].
  { apply costs_ok; [unfold len; cbn; lia|reflexivity]. }
  step. step. conjs. destruct l0 as [|x l0]; [apply costs_panic|]. destruct (sub_with_borrow _ _ _) as [w k'].
  destruct (l1 ++ w :: l0) as [|c0 c1] eqn:C; [apply costs_panic|].
  assert (LC : length (c0 :: c1) = length c). { rewrite <- C. rewrite app_length. cbn [length] in *. lia. }
  eapply costs_bind_keeps; [apply IH|]. intros c' k2 L. cbv beta iota. apply costs_ok.
  - unfold len. cbn [length]. rewrite H. nia.
  - unfold keeps. cbn [fst length] in *. lia.
Qed.

Lemma simple_costs c s a b mem : costs (c_simple_add_signed_mul_chunk c s a b mem) (len b * (len a + 1)) (keeps (length c)).
Proof.
  unfold c_simple_add_signed_mul_chunk. step. step. destruct s.
  - unfold c_add_mul_chunk. eapply costs_bind_keeps; [step; step; apply add_loop_costs|]. intros. apply costs_ok; [lia|assumption].
  - unfold c_sub_mul_chunk. eapply costs_bind_keeps; [step; step; apply sub_loop_costs|]. intros. apply costs_ok; [lia|assumption].
Qed.

Lemma simple_same_costs c s a b mem :
  costs (c_simple_add_signed_mul_same_len c s a b mem) (len a * (len a + 1)) (keeps (length c)).
Proof.
  unfold c_simple_add_signed_mul_same_len. step. step. eapply costs_weaken; [apply simple_costs| |auto]. unfold len. replace (length b) with (length a). lia.
Qed.

Lemma bounded_0 m T : bounded (c_same_len_fuel 0) m T.
Proof. intros c s a b mem _. apply costs_panic. Qed.

Lemma same_24 fuel : bounded (c_same_len_fuel fuel) 24 601.
Proof.
  destruct fuel as [|fuel]; [apply bounded_0|]. intros c s a b mem L. cbn [c_same_len_fuel]. step. step.
  destruct (length a <=? MAX_LEN_SIMPLE)%nat eqn:G; bits; [|unfold MAX_LEN_SIMPLE in G; lia].
  eapply costs_weaken; [apply simple_same_costs| |auto]. unfold len. nia.
Qed.

Lemma same_step m T T' : (forall fuel, bounded (c_same_len_fuel fuel) m T) -> 2 * m <= 192 -> 601 <= T' ->
  3 * T + 24 * m + 25 <= T' -> forall fuel, bounded (c_same_len_fuel fuel) (2 * m) T'.
Proof.
  intros IH M T1 T2 [|fuel]; [apply bounded_0|]. intros c s a b mem L.
  destruct (Z.leb_spec (Z.of_nat (length a)) 24) as [S|S].
  { eapply costs_weaken; [apply same_24; exact S|lia|auto]. }
  cbn [c_same_len_fuel]. step. step. destruct (length a <=? MAX_LEN_SIMPLE)%nat eqn:G; bits; [unfold MAX_LEN_SIMPLE in G; lia|].
  destruct (length a <=? MAX_LEN_KARATSUBA)%nat eqn:G2; bits; [|unfold MAX_LEN_KARATSUBA in G2; lia].
  eapply costs_weaken; [eapply karatsuba_costs; [apply IH|exact L|reflexivity]| |auto]. cbn [Z.of_nat]. lia.
Qed.

Lemma same_48 fuel : bounded (c_same_len_fuel fuel) 48 2404.
Proof. revert fuel. apply (same_step 24 601); [apply same_24|lia..]. Qed.
Lemma same_66 fuel : bounded (c_same_len_fuel fuel) 66 8029.
Proof. revert fuel. apply (same_step 33 2404); [|lia..]. intros fuel c s a b mem L. apply same_48. lia. Qed.
Lemma same_96 fuel : bounded (c_same_len_fuel fuel) 96 8389.
Proof. revert fuel. apply (same_step 48 2404); [apply same_48|lia..]. Qed.
Lemma same_192 fuel : bounded (c_same_len_fuel fuel) 192 27496.
Proof. revert fuel. apply (same_step 96 8389); [apply same_96|lia..]. Qed.

(** The steps for up to [64 * 3^k + 2] words. *)
Definition level (k : nat) : Z := 64 * 3 ^ Z.of_nat k + 2.
Definition level_cost (k : nat) : Z := 10188 * 5 ^ Z.of_nat k - 2112 * 3 ^ Z.of_nat k - 47.

Lemma level_S k : level (S k) = 3 * level k - 4.
Proof. unfold level. rewrite Nat2Z.inj_succ, Z.pow_succ_r by lia. lia. Qed.

Lemma pow35 k : 1 <= 3 ^ Z.of_nat k <= 5 ^ Z.of_nat k.
Proof. split; [|apply Z.pow_le_mono_l; lia]. pose proof (Z.pow_pos_nonneg 3 (Z.of_nat k)). lia. Qed.

Lemma level_cost_S k : 44557 <= level_cost (S k) /\ 5 * level_cost k + 22 * level (S k) + 141 <= level_cost (S k).
Proof.
  unfold level_cost, level. rewrite Nat2Z.inj_succ, !Z.pow_succ_r by lia. pose proof (pow35 k). lia.
Qed.

Lemma level_cost_0 : level_cost 0 = 8029. Proof. reflexivity. Qed.

Lemma same_level k : forall fuel, bounded (c_same_len_fuel fuel) (level k) (level_cost k).
Proof.
  induction k as [|k IH]; intros fuel.
  { intros c s a b mem L. eapply costs_weaken; [apply same_66; exact L|rewrite level_cost_0; lia|auto]. }
  destruct fuel as [|fuel]; [apply bounded_0|]. intros c s a b mem L. destruct (level_cost_S k) as [C1 C2].
  destruct (Z.leb_spec (Z.of_nat (length a)) 192) as [S|S].
  { eapply costs_weaken; [apply same_192; exact S|lia|auto]. }
  cbn [c_same_len_fuel]. step. step. destruct (length a <=? MAX_LEN_SIMPLE)%nat eqn:G; bits; [unfold MAX_LEN_SIMPLE in G; lia|].
  destruct (length a <=? MAX_LEN_KARATSUBA)%nat eqn:G2; bits; [unfold MAX_LEN_KARATSUBA in G2; lia|].
  rewrite level_S in L.
  eapply costs_weaken; [apply (toom_costs _ (level k) (level_cost k) (length a)); [apply (IH fuel)|lia|reflexivity]| |auto]. rewrite level_S in C2. cbn [Z.of_nat]. lia.
Qed.


(** *** Operands of different lengths *)

Lemma chunks_costs f rec H R cl r b s mem : (1 <= cl)%nat -> (r < cl)%nat ->
  (forall c a, length a = cl -> costs (f c s a b mem) (H * Z.of_nat cl) (keeps (length c))) ->
  (forall c a, length a = r -> (length b <= r)%nat -> costs (rec c s a b mem) R (keeps (length c))) ->
  (forall c a, length a = r -> (r < length b)%nat -> costs (rec c s b a mem) R (keeps (length c))) ->
  0 <= R ->
  forall fuel q c a k, length a = (q * cl + r)%nat -> length c = (length a + length b)%nat ->
  costs (c_split_chunks_loop fuel f rec c s a b cl mem k)
    (H * (Z.of_nat q * Z.of_nat cl) + 2 * len a + R + 1) (keeps (length c)).
Proof.
  intros CL RC F R1 R2 R0. induction fuel as [|fuel IH]; intros q c a k LA LC; cbn [c_split_chunks_loop].
  - destruct (cl <=? length a)%nat eqn:G; bits; [apply costs_panic|].
    assert (Q : q = O) by (destruct q; [reflexivity|lia]). subst q. cbn [Nat.mul Nat.add Z.of_nat] in *.
    step. unfold len. destruct (length b <=? length a)%nat eqn:G2; bits; [|destruct (negb _)].
    + eapply costs_bind_keeps; [apply R1; lia|]. intros. cbv beta iota. step. apply costs_ok; [lia|unfold keeps; cbn [fst]; lia].
    + eapply costs_bind_keeps; [apply R2; lia|]. intros. cbv beta iota. step. apply costs_ok; [lia|unfold keeps; cbn [fst]; lia].
    + apply costs_ok; [lia|unfold keeps; cbn [fst]; lia].
  - destruct (cl <=? length a)%nat eqn:G; bits.
    + destruct q as [|q]; [lia|]. step. conjs. step.
      eapply costs_bind_wrec; [intros w _ _; apply F; assumption|]. intros c2 k2 L2 _. cbv beta iota. step.
      eapply costs_weaken; [apply costs_window with (N := H * (Z.of_nat q * Z.of_nat cl) + 2 * len l0 + R + 1)| |].
      * intros w LW _. apply (IH q); [rewrite H1, LA; lia|]. lia.
      * unfold len. rewrite H1, LA. lia.
      * intros x [K _]. unfold keeps in *. lia.
    + assert (Q : q = O) by (destruct q; [reflexivity|lia]). subst q. cbn [Nat.mul Nat.add Z.of_nat] in *.
      step. unfold len. destruct (length b <=? length a)%nat eqn:G2; bits; [|destruct (negb _)].
      * eapply costs_bind_keeps; [apply R1; lia|]. intros. cbv beta iota. step. apply costs_ok; [lia|unfold keeps; cbn [fst]; lia].
      * eapply costs_bind_keeps; [apply R2; lia|]. intros. cbv beta iota. step. apply costs_ok; [lia|unfold keeps; cbn [fst]; lia].
      * apply costs_ok; [lia|unfold keeps; cbn [fst]; lia].
Qed.

(** Multiplying slices of [n <= b] words takes at most [H] steps per word. *)
Definition rate (b : nat) (H : Z) : Prop :=
  Z.min (Z.of_nat b) 24 + 1 <= H /\
  forall fuel c s x y mem, (24 < length x <= b)%nat -> 
  ((length x <= 192)%nat -> costs (c_karatsuba_same_len (c_same_len_fuel fuel) c s x y mem) (H * len x) (keeps (length c))) /\
  ((192 < length x)%nat -> costs (c_toom_3_same_len (c_same_len_fuel fuel) c s x y mem) (H * len x) (keeps (length c))).

Lemma rate_le b b' H : rate b H -> (b' <= b)%nat -> rate b' H.
Proof. intros [R1 R2] L. split; [lia|]. intros. apply R2. lia. Qed.

Lemma mul_costs fuel : forall c s a b mem H, rate (Nat.min (length a) (length b)) H ->
  costs (c_add_signed_mul_fuel fuel c s a b mem)
    ((H + 4) * (Z.max (len a) (len b) + 2 * Z.min (len a) (len b)) + 2) (keeps (length c)).
Proof.
  induction fuel as [|fuel IH]; intros c s a b mem H RT; [apply costs_panic|]. cbn [c_add_signed_mul_fuel]. step. step.
  assert (SW : exists a' b', (if (length a <? length b)%nat then (b, a) else (a, b)) = (a', b') /\
    len a' = Z.max (len a) (len b) /\ len b' = Z.min (len a) (len b) /\ length b' = Nat.min (length a) (length b) /\
    (length b' <= length a')%nat /\ length c = (length a' + length b')%nat).
  { unfold len. destruct (length a <? length b)%nat eqn:G; bits; do 2 eexists; (split; [reflexivity|]); lia. }
  destruct SW as (a' & b' & -> & La & Lb & Lm & Lab & Lc). rewrite <- Lm in RT. rewrite <- La, <- Lb. clear La Lb Lm E0 a b. cbv beta iota.
  rename a' into a, b' into b. pose proof (rate_le _ (length b) _ RT (Nat.le_refl _)) as [H1 H2].
  destruct (length b <=? MAX_LEN_SIMPLE)%nat eqn:G1; bits; unfold MAX_LEN_SIMPLE in G1.
  - assert (HB : len b + 1 <= H) by (unfold len; lia). step. step. destruct (length a <=? CHUNK_LEN)%nat eqn:G2; bits.
    + eapply costs_weaken; [apply simple_costs| |auto]. cbn [Z.of_nat]. unfold len in *. nia.
    + unfold c_add_signed_mul_split_into_chunks. step. step.
      assert (CL : (1 <= CHUNK_LEN)%nat) by (unfold CHUNK_LEN; lia).
      assert (ZCL : Z.of_nat CHUNK_LEN = 1024) by reflexivity.
      pose proof (Nat.div_mod (length a) CHUNK_LEN ltac:(lia)) as DM. pose proof (Nat.mod_upper_bound (length a) CHUNK_LEN ltac:(lia)) as MB.
      set (q := (length a / CHUNK_LEN)%nat) in *. set (r := (length a mod CHUNK_LEN)%nat) in *. clearbody q r.
      assert (Q1 : (1 <= q)%nat) by (destruct q; [rewrite Nat.mul_0_r in DM; lia|lia]).
      assert (ZA : len a = 1024 * Z.of_nat q + Z.of_nat r) by (unfold len; lia).
      eapply costs_weaken; [eapply (chunks_costs _ _ H ((H + 4) * (Z.max (Z.of_nat r) (len b) + 2 * Z.min (Z.of_nat r) (len b)) + 2) CHUNK_LEN r)|
        |intros x X; exact X]; try assumption.
      * intros w x LX. eapply costs_weaken; [apply simple_costs| |auto]. unfold len in *. rewrite LX, ZCL. clear - HB G1. nia.
      * intros w x LX _. eapply costs_weaken; [apply (IH w s x b mem H); eapply rate_le; [exact RT|lia]| |auto]. unfold len in *. rewrite LX. lia.
      * intros w x LX _. eapply costs_weaken; [apply (IH w s b x mem H); eapply rate_le; [exact RT|lia]| |auto]. unfold len in *. rewrite LX.
        rewrite Z.max_comm, Z.min_comm. lia.
      * unfold len in *. clear - HB. nia.
      * rewrite DM, Nat.mul_comm. reflexivity.
      * rewrite ZCL, ZA. cbn [Z.of_nat]. assert (MM : Z.max (Z.of_nat r) (len b) + 2 * Z.min (Z.of_nat r) (len b) <= Z.of_nat r + 2 * len b) by (unfold len; lia).
        assert (0 <= len b) by (unfold len; lia). assert (Z.of_nat r < 1024) by lia.
        assert ((H + 4) * (Z.max (Z.of_nat r) (len b) + 2 * Z.min (Z.of_nat r) (len b)) <= (H + 4) * (Z.of_nat r + 2 * len b)) by (apply Z.mul_le_mono_nonneg_l; lia).
        lia.
  - assert (B24 : (24 < length b)%nat) by lia.
    pose proof (Nat.div_mod (length a) (length b) ltac:(lia)) as DM. pose proof (Nat.mod_upper_bound (length a) (length b) ltac:(lia)) as MB.
    set (q := (length a / length b)%nat) in *. set (r := (length a mod length b)%nat) in *. clearbody q r.
    assert (Q1 : (1 <= q)%nat) by (destruct q; [rewrite Nat.mul_0_r in DM; lia|lia]).
    assert (ZA : len a = len b * Z.of_nat q + Z.of_nat r) by (unfold len; lia).
    assert (FIN : forall f, (forall w x, length x = length b -> costs (f w s x b mem) (H * len x) (keeps (length w))) ->
      costs (c_add_signed_mul_split_into_chunks f (c_add_signed_mul_fuel fuel) c s a b (length b) mem)
        ((H + 4) * (len a + 2 * len b) + 2 - 1) (keeps (length c))).
    { intros f F. unfold c_add_signed_mul_split_into_chunks. step. step.
      eapply costs_weaken; [eapply (chunks_costs _ _ H ((H + 4) * (len b + 2 * Z.of_nat r) + 2) (length b) r)|
        |intros x X; exact X]; try assumption; try lia.
      * intros w x LX. eapply costs_weaken; [apply (F w x LX)| |auto]. unfold len. rewrite LX. lia.
      * intros w x LX _. eapply costs_weaken; [apply (IH w s b x mem H); eapply rate_le; [exact RT|lia]| |auto]. unfold len in *. rewrite LX.
        replace (Z.max (Z.of_nat (length b)) (Z.of_nat r)) with (Z.of_nat (length b)) by lia.
        replace (Z.min (Z.of_nat (length b)) (Z.of_nat r)) with (Z.of_nat r) by lia. lia.
      * unfold len in *. clear - H1. nia.
      * rewrite DM, Nat.mul_comm. reflexivity.
      * rewrite ZA. change (Z.of_nat (length b)) with (len b). assert (RB : Z.of_nat r + 1 <= len b) by (unfold len; lia).
        assert (QB : len b <= len b * Z.of_nat q) by (unfold len in *; clear - Q1 RB; nia).
        assert (HR : H + 4 <= (H + 4) * (len b - Z.of_nat r)) by (clear - RB H1; assert (1 <= H) by lia; nia). clear - RB QB HR H1. lia. }
    destruct (length b <=? MAX_LEN_KARATSUBA)%nat eqn:G2; bits; unfold MAX_LEN_KARATSUBA in G2; step; apply FIN; intros w x LX;
      apply H2; rewrite ?LX; lia.
Qed.

End Mul.
