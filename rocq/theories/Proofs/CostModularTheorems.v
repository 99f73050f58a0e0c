(** How many steps modular arithmetic takes, for its callers (Model/CostModular.v). *)
From Coq Require Import Lia.
From Verif Require Import Model.Base Model.Words Model.Add Model.Shift Model.FastDivide Model.DivWord Model.Memory Model.Mul Model.Div
  Model.RawMemory Model.Buffer Model.UBig Model.IBig Model.Convert Model.ShiftOps Model.Bits Model.DivOps Model.Gcd Model.Modular
  Model.Cost Model.CostDiv Model.CostOps Model.CostFmt Model.CostGcd Model.CostModular Spec.Val Spec.Num Spec.Modular.
From Verif Require Import Proofs.Basics Proofs.CostProofs Proofs.CostBounds Proofs.CostTheorems Proofs.CostRates Proofs.CostDivProofs
  Proofs.CostOpsProofs Proofs.CostOpsBounds Proofs.CostDivOps Proofs.CostOperators Proofs.CostGcdProofs Proofs.CostGcdSteps Proofs.CostGcdTheorems
  Proofs.BufferProofs Proofs.BitsProofs Proofs.BitCountProofs Proofs.ShiftOpsProofs Proofs.ShiftProofs Proofs.GcdProofs Proofs.ModularProofs Proofs.ModularRoom Proofs.ModularApi Proofs.ModularPow
  Proofs.CostModularProofs Proofs.CostModularPow.

Section Steps.
Context {A : Arch} {AOK : ArchOk A}.

(** ** Sums, differences and negatives *)

Section Linear.
Context (r : ring_large) (N : Z) (EN : N = len (rl_modulus r)).

Lemma modify_linear m f : ml_ring m = r -> len (ml_value m) = N ->
  (forall ws, len ws = N -> costs (f ws r) (3 * N + 3) (fun p => len p = N)) -> costs (c_modify m f) (4 * N + 4) (fun _ => True).
Proof.
  intros E L F. unfold c_modify. rewrite E. eapply costs_bind; [apply F; exact L|]. cbv beta. intros p Lp. step. step.
  apply costs_ok; [unfold len in Lp; lia|exact I].
Qed.

Lemma negate_costs m : ml_ring m = r -> len (ml_value m) = N -> costs (c_large_negate_in_place m) (4 * N + 4) (fun _ => True).
Proof.
  intros E L. apply modify_linear; [exact E|exact L|]. intros ws Lw. step. destruct v; cbn [negb].
  - apply costs_ok; unfold len in *; lia.
  - apply costs_bind_call. intros [w o] Ew. apply sub_swap_len in Ew. step. apply costs_ok; unfold len in *; lia.
Qed.

Lemma add_costs m k : ml_ring m = r -> len (ml_value m) = N -> costs (c_large_add_in_place m k) (4 * N + 4) (fun _ => True).
Proof.
  intros E L. unfold c_large_add_in_place. step. apply modify_linear; [exact E|exact L|]. intros ws Lw. step.
  match goal with |- costs (cbind ?m ?k) _ _ => apply (costs_bind m k (N + 1) _ (fun _ => True)) end.
  - destruct b; [apply costs_ok; [unfold len in *; lia|exact I]|]. step. apply costs_ok; [unfold len in *; lia|exact I].
  - intros [|] _; [|apply costs_ok; unfold len in *; lia]. step. step. apply costs_ok; unfold len in *; lia.
Qed.

Lemma sub_costs m k : ml_ring m = r -> len (ml_value m) = N -> costs (c_large_sub_in_place m k) (4 * N + 4) (fun _ => True).
Proof.
  intros E L. unfold c_large_sub_in_place. step. apply modify_linear; [exact E|exact L|]. intros ws Lw. step.
  destruct b; [|apply costs_ok; unfold len in *; lia]. step. step. apply costs_ok; unfold len in *; lia.
Qed.

Lemma sub_swap_costs m k : ml_ring k = r -> len (ml_value k) = N -> costs (c_large_sub_in_place_swap m k) (4 * N + 4) (fun _ => True).
Proof.
  intros E L. unfold c_large_sub_in_place_swap. step. apply modify_linear; [exact E|exact L|]. intros ws Lw.
  apply costs_bind_call. intros [w o] Ew. apply sub_swap_len in Ew.
  destruct o; [|apply costs_ok; unfold len in *; lia]. step. step. apply costs_ok; unfold len in *; lia.
Qed.

End Linear.

(** A number of a multi-word ring, and the words of the ring. *)
Lemma large_facts r n x a : element (RingLarge r) n x a -> exists ws, x = MLarge (mkModuloLarge r ws) /\ len ws = words_in n /\
  words_in n = len (rl_modulus r) /\ 2 <= words_in n.
Proof.
  intros E. apply element_large in E as (R & ws & -> & _ & L & _). exists ws. split; [reflexivity|]. rewrite (ring_words r n R).
  destruct R as (_ & _ & _ & _ & L2 & _). unfold len. lia.
Qed.

Lemma words_in_pos n : 1 <= words_in n.
Proof.
  unfold words_in. pose proof wbits_ge. pose proof (Z.log2_nonneg n). assert (0 <= Z.log2 n / wbits) by (apply Z.div_pos; lia). lia.
Qed.

Lemma cfst {T} (m : counted T) (g : res T) k x : snd m = g -> 0 <= fst m -> m = (k, Ok x) -> g = Ok x /\ 0 <= k.
Proof. intros E N M. rewrite M in *. auto. Qed.

Theorem neg_steps r n x a k z : element r n x a -> c_mod_neg_v x = (k, Ok z) -> mod_neg_v x = Ok z /\ 0 <= k <= 6 * words_in n.
Proof.
  intros Ex E. destruct (cfst _ _ _ _ (neg_erase x) (neg_nn x) E) as [F N0]. split; [exact F|]. split; [exact N0|].
  pose proof (words_in_pos n) as WP. destruct r as [r|r].
  - apply element_small in Ex as (_ & raw & -> & _). apply Z.le_trans with 6; [|lia].
    eapply (counted_bound _ _ _ _ (fun _ => True) E). cbn [c_mod_neg_v]. step. apply costs_ok; [cbn; lia|exact I].
  - apply large_facts in Ex as (ws & -> & L1 & L2 & L3). apply Z.le_trans with (4 * words_in n + 4); [|lia].
    eapply (counted_bound _ _ _ _ (fun _ => True) E). cbn [c_mod_neg_v]. eapply costs_bind; [apply (negate_costs r (words_in n)); auto|].
    intros. apply costs_ok; [lia|exact I].
Qed.

Theorem sum_steps f g r n x a y b k z :
  In (f, g) [(c_mod_add_assign_r, mod_add_assign_r); (c_mod_sub_assign_r, mod_sub_assign_r); (c_mod_sub_rv, mod_sub_rv)] ->
  element r n x a -> element r n y b -> f x y = (k, Ok z) -> g x y = Ok z /\ 0 <= k <= 6 * words_in n.
Proof.
  intros F Ex Ey E. assert (FG : g x y = Ok z /\ 0 <= k).
  { destruct F as [F|[F|[F|[]]]]; injection F as <- <-.
    - exact (cfst _ _ _ _ (mod_add_erase x y) (mod_add_nn x y) E).
    - exact (cfst _ _ _ _ (mod_sub_erase x y) (mod_sub_nn x y) E).
    - exact (cfst _ _ _ _ (mod_sub_swap_erase x y) (mod_sub_swap_nn x y) E). }
  destruct FG as [FG N0]. split; [exact FG|]. split; [exact N0|].
  pose proof (words_in_pos n) as WP. destruct r as [r|r].
  - apply element_small in Ex as (_ & raw & -> & _). apply element_small in Ey as (_ & raw2 & -> & _). apply Z.le_trans with 6; [|lia].
    eapply (counted_bound _ _ _ _ (fun _ => True) E). destruct F as [F|[F|[F|[]]]]; injection F as <- <-; cbn [c_mod_add_assign_r c_mod_sub_assign_r c_mod_sub_rv];
    step; (apply costs_ok; [cbn; lia|exact I]).
  - apply large_facts in Ex as (ws & -> & L1 & L2 & L3). apply large_facts in Ey as (ws2 & -> & L4 & _). apply Z.le_trans with (4 * words_in n + 4); [|lia].
    eapply (counted_bound _ _ _ _ (fun _ => True) E). destruct F as [F|[F|[F|[]]]]; injection F as <- <-; cbn [c_mod_add_assign_r c_mod_sub_assign_r c_mod_sub_rv];
    (eapply costs_bind; [first [apply (add_costs r (words_in n)); auto; fail|apply (sub_costs r (words_in n)); auto; fail|apply (sub_swap_costs r (words_in n)); auto]|]); intros; (apply costs_ok; [lia|exact I]).
Qed.

(** ** Products *)

(** What a product in a ring of [N] words costs. *)
Lemma product_rate N : 2 <= N -> exists H W, (forall b, Z.of_nat b = N -> rate b H) /\ divides N W /\ 1 <= H /\ 99 <= W /\ below H 114 N /\ below W 1925 N.
Proof.
  intros N2. assert (N1 : (1 <= Z.to_nat N)%nat) by lia. destruct (rate_below _ N1) as (H & R & HB). rewrite Z2Nat.id in HB by lia.
  destruct (divides_below N ltac:(lia)) as (W & W1 & WB & D). exists H, W.
  split; [intros b <-; rewrite Nat2Z.id in R; exact R|]. split; [exact D|]. split; [destruct R as [R _]; clear HB WB; lia|]. auto.
Qed.

Lemma product_below N H W c : 2 <= N -> below H 114 N -> below W 1925 N -> 0 < c -> below (H + 2 * W + c) (114 + 2 * 1925 + c) N.
Proof.
  intros N2 HB WB C. assert (N0 : 0 <= N) by (clear HB WB; lia). apply below_add; [lia|exact C|exact N0| |].
  - apply below_add; [lia|lia|exact N0|exact HB|apply below_scale; [lia|exact WB]].
  - apply (below_le _ (c * 1)); [clear HB WB; lia|]. replace c with (c * 1) at 2 by ring. apply below_scale; [clear HB WB; lia|]. apply (below_const 1 1 N 1); [lia|lia|clear HB WB; lia|consts].
Qed.

Theorem mul_steps r n x a y b k z : element r n x a -> element r n y b -> c_mod_mul_assign_r x y = (k, Ok z) ->
  mod_mul_assign_r x y = Ok z /\ 0 <= k /\ k ^ 100 <= (3975 * words_in n) ^ 100 * words_in n ^ 47.
Proof.
  intros Ex Ey E. destruct (cfst _ _ _ _ (mod_mul_erase x y) (mod_mul_nn x y) E) as [F N0]. split; [exact F|]. split; [exact N0|].
  pose proof (words_in_pos n) as WP. destruct r as [r|r].
  - apply element_small in Ex as (_ & raw & -> & _). apply element_small in Ey as (_ & raw2 & -> & _).
    apply (below_times 3975); [apply (below_const 3975 3975 _ 1); [lia|lia|lia|consts]|exact N0|lia|]. apply Z.le_trans with 1; [|lia].
    eapply (counted_bound _ _ _ _ (fun _ => True) E). cbn [c_mod_mul_assign_r]. step. step. apply costs_ok; [cbn; lia|exact I].
  - apply large_facts in Ex as (ws & -> & L1 & L2 & L3). apply large_facts in Ey as (ws2 & -> & L4 & _).
    destruct (product_rate (words_in n) L3) as (H & W & R & D & H1 & W1 & HB & WB).
    apply (below_times (H + 2 * W + 11)); [apply (product_below _ H W 11); [exact L3|exact HB|exact WB|lia]|exact N0|lia|]. clear HB WB.
    apply Z.le_trans with (product_steps (words_in n) H W + 1); [|unfold product_steps; nia].
    eapply (counted_bound _ _ _ _ (fun _ => True) E). cbn [c_mod_mul_assign_r]. step. step. step. unfold c_large_mul_in_place.
    eapply costs_bind; [apply (mul_in_place_costs r (words_in n) L2 L3 H W); [apply R; symmetry; exact L2|exact D|lia|reflexivity]|]. cbv beta. intros p _.
    apply costs_ok; [cbn; lia|exact I].
Qed.

(** ** Conversions *)

Lemma from_ubig_costs r N W x : N = len (rl_modulus r) -> 2 <= N -> divides N W -> 0 <= W -> 0 <= rl_shift r < wbits -> 1 <= ulen x ->
  costs (c_large_from_ubig x r) ((W + 10) * (ulen x + N)) (fun _ => True).
Proof.
  intros EN N2 D W0 S X1. unfold c_large_from_ubig. cbv zeta. destruct (shl_costs x (rl_shift r) X1 ltac:(lia)) as [C _]. rewrite (Z.div_small (rl_shift r) wbits S) in C.
  eapply costs_bind; [exact C|]. cbv beta. intros y Hy.
  match goal with |- costs (cbind ?m ?k) _ _ => apply (costs_bind m k (W * (ulen x + 1) + 2) _ (fun _ => True)) end.
  - destruct y as [w|b]; [apply costs_ok; [|exact I]; assert (0 <= W * (ulen x + 1)) by (apply Z.mul_nonneg_nonneg; lia); lia|]. cbn [ulen] in Hy.
    assert (B1 : W * len (words b) <= W * (ulen x + 1)) by (apply Z.mul_le_mono_nonneg_l; unfold blen, len in *; lia).
    destruct (length (words b) <? length (rl_modulus r))%nat eqn:G; bits.
    + apply costs_ok; [|exact I]. assert (0 <= W * (ulen x + 1)) by (apply Z.mul_nonneg_nonneg; lia). lia.
    + step. step. unfold c_div_rem_in_place. eapply costs_bind_keeps; [apply D; unfold len in *; lia|]. intros c1 o1 Lc. cbv beta iota.
      eapply costs_weaken; [apply costs_call|cbn [Z.of_nat]; lia|auto].
  - intros vec _. step. apply costs_bind_call. intros v2 E2. injection E2 as <-. unfold c_large_new.
    eapply costs_weaken; [apply costs_call| |auto]. rewrite app_length, repeat_length.
    unfold len in EN. replace (length vec + (length (rl_modulus r) - length vec))%nat with (length (rl_modulus r)) by lia. rewrite <- EN. nia.
Qed.

Theorem into_steps r n u k z : is_ring r n -> ubig_ok u -> c_ubig_into_modulo u r = (k, Ok z) ->
  ubig_into_modulo u r = Ok z /\ 0 <= k /\ k ^ 100 <= (1935 * (ulen u + words_in n)) ^ 100 * words_in n ^ 47.
Proof.
  intros Hr Hu E. destruct (cfst _ _ _ _ (into_modulo_erase u r) (into_modulo_nn u r) E) as [F N0]. split; [exact F|]. split; [exact N0|].
  pose proof (words_in_pos n) as WP. pose proof (ulen_pos u Hu) as U1. destruct r as [r|r].
  - apply (below_times 1935); [apply (below_const 1935 1935 _ 1); [lia|lia|lia|consts]|exact N0|lia|]. apply Z.le_trans with (ulen u + 1); [|lia].
    eapply (counted_bound _ _ _ _ (fun _ => True) E). cbn [c_ubig_into_modulo]. unfold c_small_from_ubig.
    match goal with |- costs (cbind ?m ?k) _ _ => apply (costs_bind m k (ulen u + 1) _ (fun _ => True)) end; [|intros; apply costs_ok; [lia|exact I]].
    match goal with |- costs (cbind ?m ?k) _ _ => apply (costs_bind m k (ulen u + 1) _ (fun _ => True)) end.
    + destruct u as [w|b]; (eapply costs_weaken; [apply costs_call| |auto]); cbn [ulen] in *; unfold blen, len in *; lia.
    + intros. eapply costs_weaken; [apply costs_free|lia|auto].
  - apply is_ring_large in Hr as R. pose proof R as (_ & Hs & _ & _ & L2 & _). pose proof (ring_words r n R) as EW. fold (len (rl_modulus r)) in EW.
    assert (N2 : 2 <= words_in n) by (rewrite EW; unfold len; lia). destruct (divides_below (words_in n) WP) as (W & W1 & WB & D).
    apply (below_times (W + 10)); [|exact N0|lia|].
    + apply (below_add W 10 1925 10); [lia|lia|clear WB; lia|exact WB|apply (below_const 10 10 _ 1); [lia|lia|clear WB; lia|consts]].
    + clear WB. eapply (counted_bound _ _ _ _ (fun _ => True) E). cbn [c_ubig_into_modulo].
      eapply costs_bind; [apply (from_ubig_costs r (words_in n) W); auto; lia|]. intros. apply costs_ok; [lia|exact I].
Qed.

(** ** Powers *)

Lemma pow_helper_costs bits e r : forall v b, costs (c_pow_helper bits v b e r) (2 * Z.of_nat bits) (fun _ => True).
Proof.
  induction bits as [|bits IH]; intros v b; cbn [c_pow_helper]; [apply costs_ok; [lia|exact I]|]. step.
  match goal with |- costs (cbind ?m ?k) _ _ => apply (costs_bind m k 1 _ (fun _ => True)) end.
  - destruct (negb _); [eapply costs_weaken; [apply costs_call|cbn; lia|auto]|apply costs_ok; [lia|exact I]].
  - intros w _. eapply costs_weaken; [apply IH|lia|auto].
Qed.

Lemma small_pow_loop_costs r ws : forall v b, costs (c_small_pow_loop v b ws r) (2 * wbits * len ws) (fun _ => True).
Proof.
  pose proof wbits_ge as WG. induction ws as [|w ws IH]; intros v b; cbn [c_small_pow_loop]; [apply costs_ok; [unfold len; cbn; lia|exact I]|].
  eapply costs_bind; [apply pow_helper_costs|]. intros x _. rewrite Z2Nat.id by lia. eapply costs_weaken; [apply IH| |auto]. unfold len. cbn [length]. lia.
Qed.

(** The bits of the words below the top one, and of the top one. *)
Lemma bits_split e top below : ubig_ok e -> 1 <= uval e -> rev (as_words e) = top :: below ->
  1 <= top /\ wbits * len below + (wbits - leading_zeros_w top) = Z.log2 (uval e) + 1.
Proof.
  intros He H1 R. pose proof (ubig_bit_len_spec e He) as BL. unfold bitlen in BL. rewrite (proj2 (Z.eqb_neq _ _)) in BL by lia.
  apply (f_equal (@rev Z)) in R. rewrite rev_involutive in R. cbn [rev] in R. destruct e as [w|b]; cbn [as_words uval ubig_bit_len] in *.
  - destruct (Z.eqb_spec w 0); [lia|]. assert (below = [] /\ top = w) as [-> ->].
    { destruct (rev below) as [|? [|? ?]] eqn:Q; try discriminate. injection R as <-. split; [|reflexivity]. apply (f_equal (@rev Z)) in Q. rewrite rev_involutive in Q. exact Q. }
    split; [lia|]. unfold len. cbn [length]. injection BL as BL. change (Z.of_nat 0) with 0. rewrite Z.mul_0_r. exact BL.
  - assert (length (words b) = S (length below)) as L by (rewrite R, app_length, rev_length; cbn; lia).
    assert (1 <= top) as T1. { destruct He as (Wf & _ & Ln & _). rewrite R in Ln, Wf. rewrite last_last in Ln. apply wf_app in Wf as [_ Wf]. apply wf_cons in Wf as [Wf _]. lia. }
    split; [exact T1|]. unfold usize_chk, checked in BL. destruct (_ && _) in BL; [|discriminate]. cbn [bind] in BL.
    assert (G : get (length (words b) - 1) (words b) = Ok top). { rewrite R at 2. apply get_at. rewrite rev_length. lia. }
    rewrite G in BL. cbn [bind] in BL. destruct (_ && _) in BL; [|discriminate]. injection BL as BL. unfold blen, len in *. lia.
Qed.

Lemma small_pow_costs m e : ubig_ok e -> costs (c_small_pow m e) (2 * (Z.log2 (uval e) + 1)) (fun _ => True).
Proof.
  intros He. pose proof (Z.log2_nonneg (uval e)) as L0.
  assert (NT : costs (c_small_pow_nontrivial m e) (2 * (Z.log2 (uval e) + 1)) (fun _ => True)).
  { unfold c_small_pow_nontrivial, c_ubig_le. destruct (Z.leb_spec 1 (uval e)) as [V|V].
    2: { apply costs_bind_call. intros le El. pose proof B_ge as BG. assert (O3 : ubig_ok (from_word 3)) by (cbn; lia). rewrite (ubig_le_spec _ _ O3 He) in El. cbn [uval from_word] in El. rewrite (proj2 (Z.leb_gt _ _)) in El by lia.
         injection El as <-. apply costs_bind_free. intros y Ey. discriminate. }
    apply costs_bind_call. intros le El. step. destruct (rev (as_words e)) as [|top below] eqn:R; [apply costs_panic|].
    destruct (bits_split e top below He V R) as [T1 EB]. unfold c_pow_word. rewrite (proj2 (Z.eqb_neq top 0)) by lia.
    match goal with |- costs (cbind ?m ?k) _ _ => apply (costs_bind m k (2 * (wbits - 1 - leading_zeros_w top)) _ (fun _ => True)) end.
    - step. unfold checked in E0. destruct (_ && _) eqn:G in E0; [|discriminate]. injection E0 as <-. apply andb_prop in G as [G _]. apply Z.leb_le in G.
      eapply costs_weaken; [apply pow_helper_costs|rewrite Z2Nat.id by exact G; lia|auto].
    - intros v1 _. eapply costs_bind; [apply small_pow_loop_costs|]. intros v2 _. eapply costs_weaken; [apply costs_free| |auto].
      pose proof (Nat.le_min_l (length (as_words (from_word 3))) (length (as_words e))) as M. change (length (as_words (from_word 3))) with 1%nat in M at 2. lia. }
  unfold c_small_pow. destruct e as [w|b]; [|exact NT]. destruct (w =? 0); [eapply costs_weaken; [apply costs_call|cbn [Z.of_nat]; lia|auto]|].
  destruct (w =? 1); [apply costs_ok; [lia|exact I]|]. destruct (w =? 2); [|exact NT]. step. eapply costs_weaken; [apply costs_free|cbn [Z.of_nat]; lia|auto].
Qed.

(** The products of a power: a square for every bit but the first two, the table, and
    one product for every window. *)
Lemma large_pow_costs m e N H W : N = len (rl_modulus (ml_ring m)) -> 2 <= N -> rate (length (rl_modulus (ml_ring m))) H -> divides N W -> 0 <= W ->
  ubig_ok e -> 2 <= uval e -> let bits := Z.log2 (uval e) + 1 in
  exists w, 1 <= w < Z.min wbits ubits /\ (forall w', 1 <= w' < Z.min wbits ubits -> estimate bits w <= estimate bits w') /\
  costs (c_large_pow_nontrivial m e) ((product_steps N H W + N + 1) * (bits + (2 ^ (w - 1) - 1) + (bits - 2) / w) + wbits + 6) (fun _ => True).
Proof.
  intros EN N2 RT DV W0 He V2 bits. pose proof (steps_pos (ml_ring m) N N2 H W RT W0) as XP. pose proof wbits_cases as WC.
  assert (U0 : 0 < uval e) by lia. assert (L1 : 1 <= Z.log2 (uval e)) by (apply Z.log2_le_pow2; lia).
  assert (SW : wf (as_words e) /\ val (as_words e) = uval e).
  { destruct e as [w|b]; cbn [as_words uval] in *; [|split; [apply He|reflexivity]]. rewrite (proj2 (Z.eqb_neq _ _)) by lia. cbn [val].
    split; [apply wf_cons; split; [exact He|constructor]|lia]. }
  destruct SW as [Ww Vw].
  assert (LL : Z.log2 (uval e) < wbits * len (as_words e)).
  { apply Z.log2_lt_pow2; [lia|]. rewrite <- Vw. pose proof (val_bound _ Ww) as Q. rewrite Bn_pow2 in Q. exact (proj2 Q). }
  assert (LU : wbits * len (as_words e) < 2 ^ ubits).
  { pose proof MAX_LEN_facts as (F1 & F2 & _). assert (len (as_words e) <= MAX_LEN).
    { destruct e as [w|b]; cbn [as_words]; [destruct (w =? 0); unfold len; cbn; lia|]. destruct He as (_ & _ & _ & M & _). exact M. }
    nia. }
  assert (HB : 0 <= bits < 2 ^ ubits) by (unfold bits; lia).
  destruct (choose_best bits HB) as (w & EC & Hw & Best). exists w. split; [exact Hw|]. split; [exact Best|].
  assert (P1 : 0 < 2 ^ (w - 1)) by (apply pow2_pos; lia). set (T := 2 ^ (w - 1) - 1) in *. assert (T0 : 0 <= T) by (unfold T; lia).
  assert (Q0 : 0 <= (bits - 2) / w) by (apply Z.div_pos; unfold bits; lia).
  unfold c_large_pow_nontrivial, c_ubig_le. cbv zeta. apply costs_bind_call. intros le _. step.
  apply costs_bind_free. intros bl Ebl. rewrite (ubig_bit_len_spec e He) in Ebl. unfold bitlen in Ebl. rewrite (proj2 (Z.eqb_neq _ _)) in Ebl by lia. injection Ebl as <-. fold bits.
  apply costs_bind_call. intros wl Ewl. rewrite EC in Ewl. injection Ewl as <-. fold T. apply costs_bind_free. intros l _. apply costs_bind_call. intros mem _.
  apply costs_bind_call. intros [table mem2] _. cbv beta iota. unfold c_large_mul_in_place.
  eapply costs_bind; [apply (mul_in_place_costs (ml_ring m) N EN N2 H W); auto|]. cbv beta. intros sq Ev.
  eapply costs_bind; [apply (pow_table_costs (ml_ring m) N EN N2 H W); auto|]. intros table2 _.
  apply costs_bind_free. intros bit Ebit. unfold usize_chk, checked in Ebit. destruct (_ && _) in Ebit; [|discriminate]. injection Ebit as <-.
  eapply costs_weaken; [apply (large_pow_loop_costs (ml_ring m) N EN N2 H W RT DV W0 w Hw (as_words e) Ww (ml_value m) table2 (len (rl_modulus (ml_ring m))) mem2 _ sq (bits - 2) 0)| |auto].
  - unfold bits. lia.
  - unfold bits. lia.
  - exact Ev.
  - intros j Hj. lia.
  - unfold windows. replace (bits - 2 - 0 + w) with (bits - 2 + 1 * w) by ring. rewrite Z.div_add by lia. rewrite <- EN.
    set (q := (bits - 2) / w) in *. clearbody q. set (X := product_steps N H W) in *. clearbody X.
    assert (TN : 0 <= T * N) by (apply Z.mul_nonneg_nonneg; lia).
    pose proof (Nat.le_min_l (length (as_words (from_word 2))) (length (as_words e))) as M. change (length (as_words (from_word 2))) with 1%nat in M at 2.
    rewrite !Z2Nat.id by lia. cbn [Z.of_nat]. 
    assert (1 <= bits) by (unfold bits; lia). clearbody bits T. clear - M XP T0 Q0 N2 TN H0. set (k := Nat.min _ _) in *. clearbody k. nia.
Qed.

Theorem large_pow_steps m e k x : 2 <= len (rl_modulus (ml_ring m)) -> ubig_ok e -> 2 <= uval e -> c_large_pow m e = (k, Ok x) ->
  let N := len (rl_modulus (ml_ring m)) in let bits := Z.log2 (uval e) + 1 in
  exists w P, 1 <= w < Z.min wbits ubits /\ (forall w', 1 <= w' < Z.min wbits ubits -> estimate bits w <= estimate bits w') /\
    70 <= P /\ P ^ 100 <= (3975 * N) ^ 100 * N ^ 47 /\ k <= P * (bits + (2 ^ (w - 1) - 1) + (bits - 2) / w) + wbits + 6.
Proof.
  intros N2 He V2 E N bits. destruct (product_rate N N2) as (H & W & R & D & H1 & W1 & HB & WB).
  destruct (large_pow_costs m e N H W eq_refl N2 (R _ eq_refl) D ltac:(clear HB WB; lia) He V2) as (w & Hw & Best & C). fold bits in Best, C.
  exists w, (product_steps N H W + N + 1). split; [exact Hw|]. split; [exact Best|]. split; [unfold product_steps; clear HB WB C E; nia|]. split.
  - apply (below_times (H + 2 * W + 11)); [apply (product_below _ H W 11); [exact N2|exact HB|exact WB|lia]| | |].
    + unfold product_steps. clear HB WB C E. nia.
    + clear HB WB. lia.
    + unfold product_steps. clear HB WB C E. nia.
  - clear HB WB. assert (NT : c_large_pow_nontrivial m e = (k, Ok x)).
    { unfold c_large_pow in E. destruct e as [y|b]; [|exact E]. cbn [uval] in V2. rewrite (proj2 (Z.eqb_neq y 0)), (proj2 (Z.eqb_neq y 1)) in E by lia. exact E. }
    exact (counted_bound _ _ _ _ _ NT C).
Qed.

(** Fewer than two products for every bit. *)
Lemma products_bound bits w : 2 <= bits -> 1 <= w -> estimate bits w <= estimate bits 1 -> bits + (2 ^ (w - 1) - 1) + (bits - 2) / w <= 2 * bits - 1.
Proof.
  intros B2 W1 E. unfold estimate in E. change (2 ^ (1 - 1) - 1 + bits / (1 + 1)) with (bits / 2) in E. assert (0 <= bits / (w + 1)) by (apply Z.div_pos; lia).
  assert (D2 : 2 * (bits / 2) <= bits) by (apply Z.mul_div_le; lia). destruct (Z.eq_dec w 1) as [->|N].
  - change (2 ^ (1 - 1) - 1) with 0. rewrite Z.div_1_r. lia.
  - assert ((bits - 2) / w <= (bits - 2) / 2) by (apply Z.div_le_compat_l; lia). assert (2 * ((bits - 2) / 2) <= bits - 2) by (apply Z.mul_div_le; lia). lia.
Qed.

Theorem pow_steps r n x a e k z : element r n x a -> ubig_ok e -> c_mod_pow x e = (k, Ok z) ->
  mod_pow x e = Ok z /\ 0 <= k /\ k ^ 100 <= (7950 * (words_in n * (Z.log2 (uval e) + 1))) ^ 100 * words_in n ^ 47.
Proof.
  intros Ex He E. assert (NN : 0 <= fst (c_mod_pow x e)) by (unfold c_mod_pow; pose proof small_pow_nn; pose proof large_pow_nn; onn).
  destruct (cfst _ _ _ _ (mod_pow_erase x e) NN E) as [F N0].
  split; [exact F|]. split; [exact N0|]. pose proof (words_in_pos n) as WP. pose proof (Z.log2_nonneg (uval e)) as LP. set (bits := Z.log2 (uval e) + 1).
  assert (SM : k <= 7950 * bits -> k ^ 100 <= (7950 * (words_in n * bits)) ^ 100 * words_in n ^ 47).
  { intros L. apply (below_times 7950); [apply (below_const 7950 7950 _ 1); [lia|lia|lia|consts]|exact N0|unfold bits; nia|]. assert (bits <= words_in n * bits) by (unfold bits; nia). lia. }
  destruct r as [r|r].
  - apply element_small in Ex as (_ & raw & -> & _). apply SM. clear SM. apply Z.le_trans with (2 * bits); [|unfold bits; lia].
    eapply (counted_bound _ _ _ _ (fun _ => True) E). cbn [c_mod_pow]. eapply costs_bind; [apply small_pow_costs; exact He|]. intros. apply costs_ok; [unfold bits; lia|exact I].
  - pose proof Ex as Ey. apply element_large in Ey as ((_ & Hs & _) & _). apply large_facts in Ex as (ws & -> & L1 & L2 & L3). clear SM. cbn [c_mod_pow] in E.
    assert (EL : exists y, c_large_pow (mkModuloLarge r ws) e = (k, Ok y)).
    { rewrite cbind_eq in E. destruct (c_large_pow _ e) as [k' [y|p]]; cbn in E; [|discriminate]. injection E as E _. exists y. f_equal. lia. }
    destruct EL as (y & EL). destruct (Z.le_gt_cases 2 (uval e)) as [V|V].
    + assert (N2 : 2 <= len (rl_modulus (ml_ring (mkModuloLarge r ws)))) by (cbn [ml_ring]; rewrite <- L2; exact L3).
      destruct (large_pow_steps _ e k y N2 He V EL) as (w & P & Hw & Best & P70 & PB & C). cbn [ml_ring] in *. rewrite <- L2 in PB. fold bits in Best, C.
      assert (L1' : 1 <= Z.log2 (uval e)) by (apply Z.log2_le_pow2; lia).
      pose proof (products_bound bits w ltac:(unfold bits; clear - L1'; lia) ltac:(clear - Hw; lia) (Best 1 ltac:(clear - Hw; lia))) as PR. pose proof wbits_cases as WC.
      assert (K : k <= P * (2 * bits)).
      { assert (P * (bits + (2 ^ (w - 1) - 1) + (bits - 2) / w) <= P * (2 * bits - 1)) by (apply Z.mul_le_mono_nonneg_l; [clear - P70; lia|exact PR]). clear PB. lia. }
      apply Z.le_trans with ((P * (2 * bits)) ^ 100); [apply Z.pow_le_mono_l; split; [exact N0|exact K]|].
      replace (7950 * (words_in n * bits)) with ((3975 * words_in n) * (2 * bits)) by ring. rewrite (Z.pow_mul_l P), (Z.pow_mul_l (3975 * words_in n)).
      replace ((3975 * words_in n) ^ 100 * (2 * bits) ^ 100 * words_in n ^ 47) with ((3975 * words_in n) ^ 100 * words_in n ^ 47 * (2 * bits) ^ 100) by ring.
      apply Z.mul_le_mono_nonneg_r; [apply Z.pow_nonneg; unfold bits; clear - LP; lia|exact PB].
    + assert (VE : uval e = 0 \/ uval e = 1) by (pose proof (uval_nonneg e He); lia). destruct (divides_below (words_in n) WP) as (W & W1 & WB & D).
      assert (K : k <= (2 * (W + 10)) * (words_in n * bits)).
      { clear WB. apply Z.le_trans with ((2 * (W + 10)) * words_in n); [|apply Z.mul_le_mono_nonneg_l; [lia|unfold bits; clear - WP LP; nia]].
        eapply (counted_bound _ _ _ _ (fun _ => True) EL). unfold c_large_pow. destruct e as [v|b]; [|pose proof (Large_ge b He); pose proof B_ge; cbn [uval] in V; lia].
        cbn [uval] in VE. destruct VE as [-> | ->].
        - change (0 =? 0) with true. cbn iota. cbn [ml_ring]. eapply costs_weaken; [apply (from_ubig_costs r (words_in n) W); auto; cbn [ulen from_word]; lia| |auto]. cbn [ulen from_word]. nia.
        - change (1 =? 0) with false. change (1 =? 1) with true. cbn iota. cbn [ml_value]. eapply costs_weaken; [apply costs_call| |auto]. unfold len in L1. nia. }
      apply (below_times (2 * (W + 10))); [|exact N0|unfold bits; nia|exact K]. apply (below_mono _ (2 * 1935) _ (words_in n)); [lia|clear WB; lia|]. apply below_scale; [lia|].
      apply (below_add W 10 1925 10); [lia|lia|clear WB; lia|exact WB|apply (below_const 10 10 _ 1); [lia|lia|clear WB; lia|consts]].
Qed.

End Steps.
