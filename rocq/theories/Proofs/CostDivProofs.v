(** Counting what division does (Model/CostDiv.v). *)
From Coq Require Import Lia.
From Verif Require Import Model.Base Model.Words Model.Add Model.Shift Model.FastDivide Model.DivWord Model.Memory
  Model.Mul Model.Div Model.Cost Model.CostDiv Model.Buffer Spec.Val.
From Verif Require Import Proofs.Basics Proofs.CostProofs Proofs.CostBounds Proofs.CostTheorems Proofs.CostRates.

Ltac pair x := match type of x with (_ * _)%type => destruct x as [? ?] | _ => idtac end.
Ltac er1 := first
  [ reflexivity
  | rewrite snd_cbind; apply bind_ext; [|let x := fresh "x" in intros x; pair x; cbv beta iota]
  | rewrite snd_free | rewrite snd_call
  | apply snd_window; intros
  | match goal with H : forall _, _ |- _ => apply H end
  | match goal with |- context [match ?x with _ => _ end] => destruct x end ].
Ltac er := repeat er1.

Section Erase.
Context {A : Arch}.

Lemma div_step_erase f rhs l lhs : snd (c_simple_div_step f rhs l lhs) = simple_div_step f rhs l lhs.
Proof. unfold c_simple_div_step, simple_div_step. cbv zeta. er. Qed.

Lemma div_loop_erase k f rhs : forall lhs, snd (c_simple_div_loop k f rhs lhs) = simple_div_loop k f rhs lhs.
Proof. induction k; intros lhs; cbn [c_simple_div_loop simple_div_loop]; [reflexivity|]. pose proof div_step_erase. er. Qed.

Lemma simple_div_erase lhs rhs f : snd (c_simple_div_rem_in_place lhs rhs f) = simple_div_rem_in_place lhs rhs f.
Proof. unfold c_simple_div_rem_in_place, simple_div_rem_in_place. cbv zeta. pose proof div_loop_erase. er. Qed.

Lemma adjust_erase fuel : forall rem q rhs ro qo, snd (c_adjust_loop fuel rem q rhs ro qo) = adjust_loop fuel rem q rhs ro qo.
Proof.
  induction fuel as [|fuel IH]; intros; cbn [c_adjust_loop adjust_loop]; destruct (ro <? 0); try reflexivity.
  rewrite snd_cbind. apply bind_ext; [reflexivity|]. intros [rem' o]. rewrite snd_cbind. apply bind_ext; [reflexivity|]. intros ro'.
  rewrite snd_cbind, snd_call. cbn [bind]. destruct (sub_one_in_place q) as [q' o']. rewrite snd_cbind. apply bind_ext; [reflexivity|].
  intros qo'. apply IH.
Qed.

Definition div_erases (f : c_div_fn) (g : div_fn) : Prop := forall lhs rhs fd mem, snd (f lhs rhs fd mem) = g lhs rhs fd mem.

Lemma small_quotient_erase m m' d d' : erases m m' -> div_erases d d' -> div_erases (c_div_small_quotient m d) (div_small_quotient m' d').
Proof.
  unfold erases, div_erases. intros M D lhs rhs fd mem. unfold c_div_small_quotient, div_small_quotient. cbv zeta.
  pose proof simple_div_erase. pose proof adjust_erase. er.
Qed.

Lemma div_same_len_erase fuel : div_erases (c_div_same_len_fuel fuel) (div_same_len_fuel fuel).
Proof.
  induction fuel as [|fuel IH]; intros lhs rhs fd mem; [reflexivity|]. cbn [c_div_same_len_fuel div_same_len_fuel]. cbv zeta.
  rewrite snd_cbind, snd_call. cbn [bind]. pose proof (small_quotient_erase _ _ _ _ (add_signed_mul_erase fuel) IH) as S. unfold div_erases in S. er.
Qed.

Lemma dc_loop_erase depth fuel : forall lhs rhs fd mem m o, snd (c_dc_loop depth fuel lhs rhs fd mem m o) = dc_loop depth fuel lhs rhs fd mem m o.
Proof.
  pose proof (small_quotient_erase _ _ _ _ (add_signed_mul_erase depth) (div_same_len_erase depth)) as S. pose proof (div_same_len_erase depth) as D.
  unfold div_erases in *. induction fuel as [|fuel IH]; intros; cbn [c_dc_loop dc_loop]; cbv zeta; er.
Qed.

Theorem div_rem_erase depth : div_erases (c_div_rem_depth depth) (div_rem_depth depth).
Proof.
  intros lhs rhs fd mem. unfold c_div_rem_depth, div_rem_depth, c_dc_div_rem_depth, dc_div_rem_depth.
  pose proof simple_div_erase. pose proof dc_loop_erase. er.
Qed.

End Erase.

Ltac nn1 := first
  [ apply nn_free | apply nn_call
  | match goal with H : forall _, _ |- _ => apply H end
  | apply nn_bind; [|let x := fresh "x" in intros x; pair x; cbv beta iota]
  | apply nn_window; intros
  | match goal with |- context [match ?x with _ => _ end] => destruct x end ].
Ltac nn := repeat nn1.

Section Nonneg.
Context {A : Arch}.

Lemma div_step_nn f rhs l lhs : 0 <= fst (c_simple_div_step f rhs l lhs).
Proof. unfold c_simple_div_step. cbv zeta. nn. Qed.

Lemma div_loop_nn k f rhs : forall lhs, 0 <= fst (c_simple_div_loop k f rhs lhs).
Proof. induction k; intros lhs; cbn [c_simple_div_loop]; [apply nn_free|]. apply nn_bind; [apply div_step_nn|auto]. Qed.

Lemma simple_div_nn lhs rhs f : 0 <= fst (c_simple_div_rem_in_place lhs rhs f).
Proof. unfold c_simple_div_rem_in_place. cbv zeta. pose proof div_loop_nn. nn. Qed.

Lemma adjust_nn fuel : forall rem q rhs ro qo, 0 <= fst (c_adjust_loop fuel rem q rhs ro qo).
Proof. induction fuel as [|fuel IH]; intros; cbn [c_adjust_loop]; nn. Qed.

Definition div_nonneg (f : c_div_fn) : Prop := forall lhs rhs fd mem, 0 <= fst (f lhs rhs fd mem).

Lemma small_quotient_nn m d : nonneg m -> div_nonneg d -> div_nonneg (c_div_small_quotient m d).
Proof.
  unfold nonneg, div_nonneg. intros M D lhs rhs fd mem. unfold c_div_small_quotient. cbv zeta.
  pose proof simple_div_nn. pose proof adjust_nn. nn.
Qed.

Lemma div_same_len_nn fuel : div_nonneg (c_div_same_len_fuel fuel).
Proof.
  induction fuel as [|fuel IH]; intros lhs rhs fd mem; cbn [c_div_same_len_fuel]; [apply nn_free|]. cbv zeta.
  pose proof (small_quotient_nn _ _ (add_signed_mul_nn fuel) IH) as S. unfold div_nonneg in *. clear IH. nn.
Qed.

Lemma dc_loop_nn depth fuel : forall lhs rhs fd mem m o, 0 <= fst (c_dc_loop depth fuel lhs rhs fd mem m o).
Proof.
  pose proof (small_quotient_nn _ _ (add_signed_mul_nn depth) (div_same_len_nn depth)) as S. pose proof (div_same_len_nn depth) as D.
  unfold div_nonneg in *. induction fuel as [|fuel IH]; intros; cbn [c_dc_loop]; cbv zeta; nn.
Qed.

Lemma div_rem_nn depth : div_nonneg (c_div_rem_depth depth).
Proof.
  intros lhs rhs fd mem. unfold c_div_rem_depth, c_dc_div_rem_depth. pose proof simple_div_nn. pose proof dc_loop_nn. nn.
Qed.

End Nonneg.

Section Bounds.
Context {A : Arch}.

Definition same_length {T} (n : nat) (l : list T) : Prop := length l = n.

Lemma set_len {T} i (v : T) l l' : set i v l = Ok l' -> length l' = length l.
Proof. unfold set. destruct (i <? length l)%nat; [|discriminate]. intros E. injection E as <-. apply upd_len. Qed.

Lemma div_step_costs f rhs l lhs : costs (c_simple_div_step f rhs l lhs) (2 * (len rhs + 1)) (same_length (length lhs)).
Proof.
  unfold c_simple_div_step. cbv zeta. steps. 
  match goal with |- costs (cbind ?m ?k) _ _ => apply (costs_bind m k (len rhs + 1) _ (fun x => length (fst (fst x)) = length lhs)) end.
  - match goal with |- costs (if ?b then _ else _) _ _ => destruct b end.
    + steps. apply costs_ok; [unfold len; lia|cbn [fst]; lia].
    + apply costs_ok; [unfold len; lia|cbn [fst]; lia].
  - intros [[l2 q2] b2] L2. cbn [fst] in L2. cbv beta iota. step.
    eapply costs_weaken; [apply costs_free|unfold len; lia|]. intros x X. apply set_len in X. unfold same_length. lia.
Qed.

Lemma div_loop_costs k f rhs : forall lhs, costs (c_simple_div_loop k f rhs lhs) (Z.of_nat k * (2 * (len rhs + 1))) (same_length (length lhs)).
Proof.
  induction k as [|k IH]; intros lhs; cbn [c_simple_div_loop].
  - apply costs_ok; [lia|reflexivity].
  - eapply costs_bind; [apply div_step_costs|]. intros v L. unfold same_length in L. rewrite <- L.
    eapply costs_weaken; [apply IH|unfold len; lia|auto].
Qed.

Lemma simple_div_costs lhs rhs f : costs (c_simple_div_rem_in_place lhs rhs f) ((2 * len rhs + 2) * (len lhs - len rhs + 1)) (keeps (length lhs)).
Proof.
  unfold c_simple_div_rem_in_place. cbv zeta. steps.
  match goal with |- costs (cbind ?m ?k) _ _ => apply (costs_bind m k (len rhs + 1) _ (same_length (length lhs))) end.
  - match goal with |- context [if ?b then _ else _] => destruct b end.
    + steps. apply costs_ok; [unfold len; lia|unfold same_length; lia].
    + apply costs_ok; [unfold len; lia|reflexivity].
  - intros l L. unfold same_length in L. eapply costs_bind; [apply div_loop_costs|]. intros l2 L2. unfold same_length in L2.
    apply costs_ok; [unfold len; nia|unfold keeps; cbn [fst]; lia].
Qed.

Lemma adjust_costs fuel : forall rem q rhs ro qo, costs (c_adjust_loop fuel rem q rhs ro qo) (Z.of_nat fuel * (len rem + len q + 2))
  (fun x => length (fst (fst (fst x))) = length rem /\ length (snd (fst (fst x))) = length q).
Proof.
  induction fuel as [|fuel IH]; intros; cbn [c_adjust_loop]; destruct (ro <? 0).
  - apply costs_panic.
  - apply costs_ok; [lia|auto].
  - step. step. step. step. assert (length l0 = length q). { injection E0 as E0. pose proof (sub_one_len q). rewrite E0 in H. exact H. }
    eapply costs_weaken; [apply IH| |].
    + unfold len. lia.
    + intros x [X1 X2]. lia.
  - apply costs_ok; [unfold len; lia|auto].
Qed.

(** A quotient of fewer words than the divisor. *)
Lemma small_quotient_costs m d M D lhs rhs fd mem :
  (33 <= len lhs - len rhs < len rhs -> forall c s a b mem, len a = len lhs - len rhs -> len b = 2 * len rhs - len lhs -> costs (m c s a b mem) M (keeps (length c))) ->
  (33 <= len lhs - len rhs < len rhs -> forall l r mem, len r = len lhs - len rhs -> costs (d l r fd mem) D (keeps (length l))) ->
  costs (c_div_small_quotient m d lhs rhs fd mem)
    (if len lhs - len rhs <=? 32 then (2 * len rhs + 2) * 33 else D + M + 8 * len rhs + 9) (keeps (length lhs)).
Proof.
  intros HM HD. unfold c_div_small_quotient. cbv zeta. step. step.
  destruct (length lhs - length rhs <=? DIV_MAX_LEN_SIMPLE)%nat eqn:G; bits; unfold DIV_MAX_LEN_SIMPLE in G.
  - destruct (Z.leb_spec (len lhs - len rhs) 32); [|unfold len in *; lia].
    eapply costs_weaken; [apply simple_div_costs| |auto]. apply Z.mul_le_mono_nonneg_l; unfold len in *; lia.
  - destruct (Z.leb_spec (len lhs - len rhs) 32); [unfold len in *; lia|].
    step. conjs. eapply costs_bind_wrec; [intros; apply HD; unfold len in *; lia|]. intros ? ? ? ?. cbv beta iota. step. step. conjs.
    eapply costs_bind_keeps; [apply HM; unfold len in *; lia|]. intros ? ? ?. cbv beta iota.
    match goal with |- costs (cbind ?m ?k) _ _ => apply (costs_bind m k (2 * len rhs - len lhs + 1) _ (keeps (length rhs))) end.
    { destruct (negb _); [steps; apply costs_ok; unfold len, keeps in *; cbn [fst]; lia|apply costs_ok; unfold len, keeps in *; cbn [fst]; lia]. }
    intros [rem ro] K. unfold keeps in K. cbn [fst] in K. cbv beta iota.
    eapply costs_bind; [apply adjust_costs|]. intros [[[rem2 q2] ro2] qo2] [K1 K2]. cbn [fst snd] in K1, K2. cbv beta iota. step.
    apply costs_ok; [unfold len in *; lia|]. unfold keeps. cbn [fst]. rewrite app_length. lia.
Qed.

Lemma mul_in_div fuel n m H c s a b mem : rate (Z.to_nat m) H -> 33 <= m < n -> len a = m -> len b = n - m ->
  costs (c_add_signed_mul_fuel fuel c s a b mem) (2 * (H + 4) * n) (keeps (length c)).
Proof.
  intros R M LA LB. assert (H0 : 25 <= H) by (destruct R as [R _]; lia).
  eapply costs_weaken; [apply (mul_costs fuel c s a b mem H); eapply rate_le; [exact R|unfold len in *; lia]| |auto].
  rewrite LA, LB. assert (X : 2 * Z.max m (n - m) + 4 * Z.min m (n - m) <= 3 * n) by lia. nia.
Qed.

(** One division with a short quotient, given the cost of the recursive one. *)
Lemma short_costs fuel H K lhs rhs fd mem m : len lhs = len rhs + m -> 0 <= m < len rhs -> 33 <= len rhs -> 24 <= H -> 0 <= K ->
  (33 <= m -> rate (Z.to_nat m) H) ->
  (33 <= m -> forall l r mem, len r = m -> costs (c_div_same_len_fuel fuel l r fd mem) (K * m) (keeps (length l))) ->
  costs (c_div_small_quotient (c_add_signed_mul_fuel fuel) (c_div_same_len_fuel fuel) lhs rhs fd mem)
    (K * m + (2 * H + 20) * len rhs) (keeps (length lhs)).
Proof.
  intros L M N H0 K0 R D. eapply costs_weaken; [apply (small_quotient_costs _ _ (2 * (H + 4) * len rhs) (K * m))| |auto].
  - intros G c s a b mem' LA LB. apply (mul_in_div fuel (len rhs) m); [apply R| | |]; lia.
  - intros G l r mem' LR. apply D; lia.
  - destruct (Z.leb_spec (len lhs - len rhs) 32); nia.
Qed.

(** What a division of twice the words of the divisor costs, for each of them. *)
Definition drate (d W : Z) : Prop := forall fuel lhs rhs fd mem, len rhs <= d ->
  costs (c_div_same_len_fuel fuel lhs rhs fd mem) (W * len rhs) (keeps (length lhs)).

Lemma drate_le d d' W : drate d W -> d' <= d -> drate d' W.
Proof. intros D L fuel lhs rhs fd mem G. apply D. lia. Qed.

Lemma drate_32 : drate 32 0.
Proof.
  intros [|fuel] lhs rhs fd mem L; [apply costs_panic|]. cbn [c_div_same_len_fuel]. cbv zeta. step. step.
  unfold DIV_MAX_LEN_SIMPLE in *. unfold len in L. lia.
Qed.

Lemma drate_double d W H : 32 <= d -> 0 <= W -> drate d W -> rate (Z.to_nat d) H -> drate (2 * d) (W + (4 * H + 41)).
Proof.
  intros D0 W0 D R [|fuel] lhs rhs fd mem L; [apply costs_panic|]. cbn [c_div_same_len_fuel]. cbv zeta. step. step.
  unfold DIV_MAX_LEN_SIMPLE in *. assert (HH : 24 <= H) by (destruct R as [R _]; lia).
  pose proof (Nat.div_mod (length rhs) 2 ltac:(discriminate)) as DM. pose proof (Nat.mod_upper_bound (length rhs) 2 ltac:(discriminate)) as MB.
  set (lo := (length rhs / 2)%nat) in *. set (r := (length rhs mod 2)%nat) in *. clearbody lo r.
  assert (S : forall w m, len w = len rhs + m -> 0 <= m < len rhs -> m <= d ->
    costs (c_div_small_quotient (c_add_signed_mul_fuel fuel) (c_div_same_len_fuel fuel) w rhs fd mem)
      (W * m + (2 * H + 20) * len rhs) (keeps (length w))).
  { intros w m LW M1 M2. apply short_costs; [exact LW|exact M1|unfold len in *; lia|lia|exact W0| |].
    - intros _. eapply rate_le; [exact R|]. lia.
    - intros _ l rh mem' G. rewrite <- G. apply D; lia. }
  eapply costs_bind_wrec; [intros w LW G; apply (S w (len rhs - Z.of_nat lo)); unfold len in *; lia|].
  intros c' o LC G. eapply costs_bind_wrec; [intros w LW G2; apply (S w (Z.of_nat lo)); unfold len in *; lia|].
  intros c2 o2 LC2 G2. step. apply costs_ok; [|unfold keeps; cbn [fst]; lia].
  unfold len in *. nia.
Qed.

Lemma drate_levels k : exists W, below W 1210 (32 * 2 ^ Z.of_nat k) /\ drate (32 * 2 ^ Z.of_nat k) W.
Proof.
  induction k as [|k (W & WB & D)].
  - exists 0. split; [apply (below_const 0 1210 _ 1); [lia|lia|cbn; lia|consts]|apply drate_32].
  - rewrite Nat2Z.inj_succ, Z.pow_succ_r by lia. replace (32 * (2 * 2 ^ Z.of_nat k)) with (2 * (32 * 2 ^ Z.of_nat k)) by ring.
    assert (P : 32 <= 32 * 2 ^ Z.of_nat k) by (pose proof (Z.pow_pos_nonneg 2 (Z.of_nat k)); lia).
    set (d := 32 * 2 ^ Z.of_nat k) in *. clearbody d.
    assert (D1 : (1 <= Z.to_nat d)%nat) by lia. destruct (rate_below (Z.to_nat d) D1) as (H & R & HB). rewrite Z2Nat.id in HB by lia.
    exists (W + (4 * H + 41)). split; [|apply drate_double; [exact P|apply WB|exact D|exact R]].
    assert (V : below (4 * H + 41) (4 * 114 + 9) d).
    { apply below_add; [lia|lia|lia|apply below_scale; [lia|exact HB]|apply (below_const 41 9 d 32); [lia|lia|lia|consts]]. }
    apply (below_add _ _ 874 336); [lia|lia|lia| |].
    + apply (below_double _ 1210); [lia|lia|consts|exact WB].
    + apply (below_double _ (4 * 114 + 9)); [lia|lia|consts|exact V].
Qed.

Lemma drate_below d : 1 <= d -> exists W, below W 1677 d /\ drate d W.
Proof.
  intros D1. destruct (Z.leb_spec d 32) as [S1|S1].
  - exists 0. split; [apply (below_const 0 1677 _ 1); [lia|lia|lia|consts]|]. eapply drate_le; [apply drate_32|exact S1].
  - pose proof (Z.log2_up_spec d ltac:(lia)) as [L1 L2].
    assert (LG5 : 5 < Z.log2_up d) by (apply Z.log2_up_lt_pow2; lia).
    destruct (drate_levels (Z.to_nat (Z.log2_up d - 5))) as (W & WB & D). rewrite Z2Nat.id in WB, D by lia.
    assert (E : 32 * 2 ^ (Z.log2_up d - 5) = 2 ^ Z.log2_up d) by (change 32 with (2 ^ 5); rewrite <- Z.pow_add_r by lia; f_equal; lia).
    rewrite E in WB, D. exists W. split; [|eapply drate_le; [exact D|exact L2]].
    apply (below_half _ 1210); [lia|lia|consts|]. apply (below_mono _ 1210 1210 (2 ^ Z.log2_up d)); [lia| |exact WB].
    split; [apply Z.pow_nonneg; lia|]. replace (Z.log2_up d) with (Z.succ (Z.pred (Z.log2_up d))) by lia. rewrite Z.pow_succ_r by lia. clear WB. lia.
Qed.

Lemma dc_loop_costs depth d H W rhs fd mem : 33 <= len rhs -> 24 <= H -> 0 <= W -> drate d W -> rate (Z.to_nat d) H ->
  forall fuel lhs m o,
  ((length rhs < m)%nat -> (m < 2 * length rhs)%nat -> Z.of_nat m - len rhs <= d) -> ((2 * length rhs <= m)%nat -> len rhs <= d) ->
  costs (c_dc_loop depth fuel lhs rhs fd mem m o) ((W + (2 * H + 20)) * Z.of_nat m) (keeps (length lhs)).
Proof.
  intros N H0 W0 D R.
  assert (T : forall (lhs : list Z) m (o : bool), ((length rhs < m)%nat -> (m < 2 * length rhs)%nat -> Z.of_nat m - len rhs <= d) -> (m < 2 * length rhs)%nat ->
    costs (if (length rhs <? m)%nat then
        '(lhs, o') <+ c_window 0 m lhs
           (fun w => c_div_small_quotient (c_add_signed_mul_fuel depth) (c_div_same_len_fuel depth) w rhs fd mem) ;;
        o <+ (if (o' : bool) then ensure (m =? length lhs)%nat ;; free (Ok true) else free (Ok o)) ;;
        free (Ok (lhs, o))
      else free (Ok (lhs, o))) ((W + (2 * H + 20)) * Z.of_nat m) (keeps (length lhs))).
  { intros lhs m o R1 G. destruct (length rhs <? m)%nat eqn:G2; [apply Nat.ltb_lt in G2|apply costs_ok; [nia|reflexivity]].
    specialize (R1 G2 G).
    apply (costs_bind_wrec _ _ _ _ _ (W * (Z.of_nat m - len rhs) + (2 * H + 20) * len rhs)).
    - intros w LW GW. apply short_costs; [unfold len; lia|unfold len; lia|exact N|exact H0|exact W0| |].
      + intros _. eapply rate_le; [exact R|]. lia.
      + intros _ l r mem' LR. rewrite <- LR. apply D. lia.
    - intros c' o' LC GW. match goal with |- costs (cbind ?m ?k) ?N _ => apply (costs_bind m k 0 _ (fun _ => True)) end.
      { destruct o'; [step|]; apply costs_ok; (lia || exact I). }
      intros o2 _. apply costs_ok; [|unfold keeps; cbn [fst]; lia]. unfold len in *. nia. }
  induction fuel as [|fuel IH]; intros lhs m o R1 R2; cbn [c_dc_loop]; cbv zeta;
    (destruct (2 * length rhs <=? m)%nat eqn:G; [apply Nat.leb_le in G|apply Nat.leb_gt in G; exact (T lhs m o R1 G)]); [apply costs_panic|].
  apply (costs_bind_wrec _ _ _ _ _ (W * len rhs)).
  - intros w LW GW. apply D. exact (R2 G).
  - intros c' o' LC GW. match goal with |- costs (cbind ?m ?k) ?N _ => apply (costs_bind m k 0 _ (fun _ => True)) end.
    { destruct o'; [step|]; apply costs_ok; (lia || exact I). }
    intros o2 _. eapply costs_weaken; [apply (IH c')| |].
    + intros _ I2. specialize (R2 G). unfold len in *. lia.
    + intros _. exact (R2 G).
    + unfold len in *. nia.
    + unfold keeps. intros x X. lia.
Qed.

Lemma div_rem_costs depth d H W lhs rhs fd mem : 33 <= len rhs -> 33 <= len lhs - len rhs -> d = Z.min (len rhs) (len lhs - len rhs) ->
  0 <= W -> drate d W -> rate (Z.to_nat d) H ->
  costs (c_div_rem_depth depth lhs rhs fd mem) ((W + (2 * H + 20)) * len lhs) (keeps (length lhs)).
Proof.
  intros N M DE W0 D R. unfold c_div_rem_depth, c_dc_div_rem_depth, DIV_MAX_LEN_SIMPLE. step.
  destruct (Nat.leb_spec (length rhs) 32); [unfold len in *; lia|]. destruct (Nat.leb_spec (length lhs - length rhs) 32); [unfold len in *; lia|].
  assert (24 <= H) by (destruct R as [R _]; lia).
  cbn [orb]. step. step. apply (dc_loop_costs _ d); try assumption; intros; unfold len in *; lia.
Qed.

Lemma div_rem_flat depth lhs rhs fd mem : len rhs <= 32 \/ len lhs - len rhs <= 32 ->
  costs (c_div_rem_depth depth lhs rhs fd mem) ((2 * len rhs + 2) * (len lhs - len rhs + 1)) (keeps (length lhs)).
Proof.
  intros L. unfold c_div_rem_depth, DIV_MAX_LEN_SIMPLE. step.
  destruct (Nat.leb_spec (length rhs) 32); [apply simple_div_costs|]. destruct (Nat.leb_spec (length lhs - length rhs) 32); [apply simple_div_costs|].
  unfold len in L. lia.
Qed.

(** CHANGELOG.md:126: O(n^1.47) *)
Lemma div_rem_rate depth lhs rhs fd mem : 2 <= len rhs <= len lhs ->
  exists W, below W 1910 (Z.min (len rhs) (len lhs - len rhs + 1)) /\
    costs (c_div_rem_depth depth lhs rhs fd mem) (W * len lhs) (keeps (length lhs)).
Proof.
  intros L. set (e := Z.min (len rhs) (len lhs - len rhs + 1)). assert (E1 : 1 <= e) by lia.
  assert (SM : len rhs <= 32 \/ len lhs - len rhs <= 32 -> exists W, below W 1910 e /\ costs (c_div_rem_depth depth lhs rhs fd mem) (W * len lhs) (keeps (length lhs))).
  { intros S1. exists 99. split; [apply (below_const 99 1910 e 1); [lia|lia|lia|consts]|].
    eapply costs_weaken; [apply div_rem_flat; exact S1| |auto]. destruct S1; nia. }
  destruct (Z.leb_spec (len rhs) 32) as [S1|S1]; [apply SM; left; exact S1|].
  destruct (Z.leb_spec (len lhs - len rhs) 32) as [S2|S2]; [apply SM; right; exact S2|]. clear SM.
  set (d := Z.min (len rhs) (len lhs - len rhs)). assert (D1 : 33 <= d <= e) by lia.
  destruct (drate_below d ltac:(lia)) as (W & WB & D).
  assert (DN : (1 <= Z.to_nat d)%nat) by lia. destruct (rate_below (Z.to_nat d) DN) as (H & R & HB). rewrite Z2Nat.id in HB by lia.
  exists (W + (2 * H + 20)). split; [|apply (div_rem_costs depth d); [lia|lia|reflexivity|apply WB|exact D|exact R]].
  apply (below_mono _ 1910 1910 d); [lia|lia|]. apply (below_add _ _ 1677 233); [lia|lia|lia|exact WB|].
  apply (below_mono _ (2 * 114 + 5) 233 d d); [lia|lia|].
  apply below_add; [lia|lia|lia|apply below_scale; [lia|exact HB]|apply (below_const 20 5 d 32); [lia|lia|lia|consts]].
Qed.

Theorem div_cost depth lhs rhs fd mem x : 2 <= len rhs <= len lhs -> div_rem_depth depth lhs rhs fd mem = Ok x ->
  0 <= fst (c_div_rem_depth depth lhs rhs fd mem) /\
  fst (c_div_rem_depth depth lhs rhs fd mem) ^ 100 <= (1910 * len lhs) ^ 100 * (Z.min (len rhs) (len lhs - len rhs + 1)) ^ 47.
Proof.
  intros L E. rewrite <- div_rem_erase in E. pose proof (div_rem_nn depth lhs rhs fd mem) as NN. split; [exact NN|].
  destruct (div_rem_rate depth lhs rhs fd mem L) as (W & WB & C). destruct (C x E) as [C1 _].
  apply (below_le _ (W * len lhs) (1910 * len lhs)); [split; [exact NN|exact C1]|].
  rewrite (Z.mul_comm W), (Z.mul_comm 1910). apply below_scale; [lia|exact WB].
Qed.

End Bounds.

(** What callers get. *)
From Verif Require Import Proofs.AddProofs Proofs.MulProofs Proofs.MulFull Proofs.FastDivideProofs Proofs.DivProofs.

Section Callers.
Context {A : Arch} {AOK : ArchOk A}.

Theorem mul_steps c s a b mem : wf c -> wf a -> wf b -> length c = (length a + length b)%nat ->
  mul_memory (length b) <= mem -> (1 <= length b <= length a)%nat ->
  exists n x, c_add_signed_mul c s a b mem = (n, Ok x) /\ add_signed_mul c s a b mem = Ok x /\
    0 <= n /\ n ^ 100 <= (350 * len a) ^ 100 * len b ^ 47.
Proof.
  intros Wc Wa Wb L M LL. destruct (add_signed_mul_spec c s a b mem Wc Wa Wb L) as (c' & k & E & _); [rewrite Nat.min_r by lia; exact M|].
  exists (fst (c_add_signed_mul c s a b mem)), (c', k). unfold add_signed_mul in *. unfold c_add_signed_mul.
  pose proof (add_signed_mul_erase (S (length a + length b)) c s a b mem) as ER.
  destruct (mul_cost (S (length a + length b)) c s a b mem (c', k)) as [C1 C2]; [unfold len; lia|exact E|].
  split; [|split; [exact E|split; [exact C1|exact C2]]]. rewrite E in ER. rewrite <- ER. apply surjective_pairing.
Qed.

Theorem simple_steps c s a b mem : wf c -> wf a -> wf b -> length c = (length a + length b)%nat ->
  mul_memory (length b) <= mem -> (1 <= length b <= length a)%nat -> (length b <= 24)%nat ->
  fst (c_add_signed_mul c s a b mem) <= 20 * len a * len b.
Proof.
  intros Wc Wa Wb L M LL L24. destruct (add_signed_mul_spec c s a b mem Wc Wa Wb L) as (c' & k & E & _); [rewrite Nat.min_r by lia; exact M|].
  unfold c_add_signed_mul. unfold add_signed_mul in E. eapply simple_cost; [unfold len; lia|unfold len; lia|exact E].
Qed.

Theorem same_len_steps c s a b mem : wf c -> wf a -> wf b -> length b = length a -> length c = (2 * length a)%nat ->
  mul_memory (length a) <= mem -> (1 <= length a)%nat ->
  exists n x, c_add_signed_mul_same_len c s a b mem = (n, Ok x) /\ add_signed_mul_same_len c s a b mem = Ok x /\
    0 <= n /\ n ^ 100 <= 120 ^ 100 * len a ^ 147 /\ (len a <= 192 -> n ^ 100 <= 24 ^ 100 * len a ^ 159).
Proof.
  intros Wc Wa Wb L L2 M LL. destruct (add_signed_mul_same_len_spec (length a) c s a b mem Wc Wa Wb eq_refl L L2 M) as (c' & k & E & _).
  exists (fst (c_add_signed_mul_same_len c s a b mem)), (c', k). unfold add_signed_mul_same_len in *. unfold c_add_signed_mul_same_len.
  pose proof (same_len_erase (S (length a)) c s a b mem) as ER.
  destruct (same_len_cost (S (length a)) c s a b mem (c', k)) as [C1 C2]; [unfold len; lia|exact E|].
  split; [rewrite E in ER; rewrite <- ER; apply surjective_pairing|split; [exact E|split; [exact C1|split; [exact C2|]]]].
  intros L192. apply (karatsuba_cost (S (length a)) c s a b mem (c', k)); [unfold len in *; lia|exact E].
Qed.

Theorem div_steps lhs rest top f need mem : wf lhs -> wf (rest ++ [top]) ->
  B <= 2 * top -> fdn_new top = Ok f -> (1 <= length rest)%nat -> (length rest < length lhs)%nat ->
  div_memory (length lhs) (S (length rest)) = Ok need -> need <= mem ->
  exists n x, c_div_rem_in_place lhs (rest ++ [top]) f mem = (n, Ok x) /\ div_rem_in_place lhs (rest ++ [top]) f mem = Ok x /\ 0 <= n /\
    n ^ 100 <= (1910 * len lhs) ^ 100 * (Z.min (len rest + 1) (len lhs - len rest)) ^ 47.
Proof.
  intros Wl Wr Ht Ef L1 L2 Em Hm.
  assert (length (rest ++ [top]) = S (length rest)) as Lr by (rewrite app_length; cbn [length]; lia).
  assert (norm_div (rest ++ [top]) f) as N.
  { split; [auto|]. exists rest, top. split; [auto|]. apply wf_app in Wr as [_ Wt]. apply wf_cons in Wt as [Wt _].
    destruct (fdn_new_spec top Ht ltac:(lia)) as (f' & E & F). congruence. }
  rewrite <- Lr in Em. destruct (div_rem_in_place_spec lhs (rest ++ [top]) f need mem) as (lhs' & o & E & _); auto; try lia.
  assert (LR : len (rest ++ [top]) = len rest + 1) by (unfold len; lia).
  exists (fst (c_div_rem_in_place lhs (rest ++ [top]) f mem)), (lhs', o). unfold div_rem_in_place in *. unfold c_div_rem_in_place.
  pose proof (div_rem_erase (S (length (rest ++ [top]))) lhs (rest ++ [top]) f mem) as ER. unfold c_div_fn in *.
  destruct (div_cost (S (length (rest ++ [top]))) lhs (rest ++ [top]) f mem (lhs', o)) as [C1 C2]; [unfold len; lia|exact E|].
  split; [rewrite E in ER; rewrite <- ER; apply surjective_pairing|split; [exact E|split; [exact C1|]]].
  rewrite LR in C2. replace (len lhs - (len rest + 1) + 1) with (len lhs - len rest) in C2 by ring. exact C2.
Qed.

End Callers.
