(** What modular products and powers cost (Model/CostModular.v). *)
From Coq Require Import Lia.
From Verif Require Import Model.Base Model.Words Model.Add Model.Shift Model.FastDivide Model.DivWord Model.Memory Model.Mul Model.Div
  Model.RawMemory Model.Buffer Model.UBig Model.IBig Model.Convert Model.ShiftOps Model.Bits Model.DivOps Model.Gcd Model.Modular
  Model.Cost Model.CostDiv Model.CostOps Model.CostFmt Model.CostGcd Model.CostModular Spec.Val.
From Verif Require Import Proofs.Basics Proofs.CostProofs Proofs.CostBounds Proofs.CostTheorems Proofs.CostRates Proofs.CostDivProofs
  Proofs.CostOpsProofs Proofs.CostOpsBounds Proofs.CostDivOps Proofs.CostGcdProofs Proofs.CostGcdSteps Proofs.CostGcdTheorems.

Section Erase.
Context {A : Arch}.

Lemma modify_erase m f g : (forall ws r, snd (f ws r) = g ws r) -> snd (c_modify m f) = modify m g.
Proof. intros F. unfold c_modify, modify. oer. Qed.

Lemma neg_erase a : snd (c_mod_neg_v a) = mod_neg_v a.
Proof.
  unfold c_mod_neg_v, mod_neg_v, c_large_negate_in_place, large_negate_in_place. destruct a as [m|m]; [oer|].
  rewrite snd_cbind. apply bind_ext; [|reflexivity]. apply modify_erase. intros. rewrite snd_cbind, snd_call. cbn [bind]. oer.
Qed.

Lemma mod_add_erase a b : snd (c_mod_add_assign_r a b) = mod_add_assign_r a b.
Proof.
  unfold c_mod_add_assign_r, mod_add_assign_r, c_large_add_in_place, large_add_in_place. destruct a as [m|m], b as [k|k]; try oer.
  apply modify_erase. intros. oer.
Qed.

Lemma mod_sub_erase a b : snd (c_mod_sub_assign_r a b) = mod_sub_assign_r a b.
Proof.
  unfold c_mod_sub_assign_r, mod_sub_assign_r, c_large_sub_in_place, large_sub_in_place. destruct a as [m|m], b as [k|k]; try oer.
  apply modify_erase. intros. oer.
Qed.

Lemma mod_sub_swap_erase a b : snd (c_mod_sub_rv a b) = mod_sub_rv a b.
Proof.
  unfold c_mod_sub_rv, mod_sub_rv, c_large_sub_in_place_swap, large_sub_in_place_swap. destruct a as [m|m], b as [k|k]; try oer.
  apply modify_erase. intros. oer.
Qed.

Lemma mul_normalized_erase r a b mem : snd (c_mul_normalized r a b mem) = mul_normalized r a b mem.
Proof.
  unfold c_mul_normalized, mul_normalized, c_add_signed_mul_same_len, add_signed_mul_same_len, c_div_rem_in_place, div_rem_in_place. cbv zeta.
  pose proof (same_len_erase (S (length a))) as S1. pose proof (div_rem_erase (S (length (rl_modulus r)))) as S2. unfold erases, div_erases in *. oer.
Qed.

Lemma mul_in_place_erase m v mem : snd (c_mul_normalized_in_place m v mem) = mul_normalized_in_place m v mem.
Proof. unfold c_mul_normalized_in_place, mul_normalized_in_place. apply modify_erase. intros. unfold c_copy_slice. pose proof mul_normalized_erase. oer. Qed.

Lemma square_in_place_erase m mem : snd (c_large_square_in_place m mem) = large_square_in_place m mem.
Proof. unfold c_large_square_in_place, large_square_in_place. apply modify_erase. intros. unfold c_copy_slice. pose proof mul_normalized_erase. oer. Qed.

Lemma large_mul_erase m v mem : snd (c_large_mul_in_place m v mem) = large_mul_in_place m v mem.
Proof. apply mul_in_place_erase. Qed.

Lemma mod_mul_erase a b : snd (c_mod_mul_assign_r a b) = mod_mul_assign_r a b.
Proof. unfold c_mod_mul_assign_r, mod_mul_assign_r. pose proof large_mul_erase. oer. Qed.

Lemma from_ubig_erase x r : snd (c_large_from_ubig x r) = large_from_ubig x r.
Proof.
  unfold c_large_from_ubig, large_from_ubig, c_large_new, c_div_rem_in_place, div_rem_in_place. cbv zeta.
  pose proof shl_v_erase. pose proof (div_rem_erase (S (length (rl_modulus r)))) as S2. unfold div_erases in *. oer.
Qed.

Lemma into_modulo_erase x r : snd (c_ubig_into_modulo x r) = ubig_into_modulo x r.
Proof. unfold c_ubig_into_modulo, ubig_into_modulo, c_small_from_ubig, small_from_ubig. pose proof from_ubig_erase. oer. Qed.

Lemma pow_helper_erase bits : forall v base e r, snd (c_pow_helper bits v base e r) = pow_helper bits v base e r.
Proof. induction bits as [|bits IH]; intros; cbn [c_pow_helper pow_helper]; oer. Qed.

Lemma pow_word_erase v e r : snd (c_pow_word v e r) = pow_word v e r.
Proof. unfold c_pow_word, pow_word. pose proof pow_helper_erase. oer. Qed.

Lemma small_pow_loop_erase ws : forall v base r, snd (c_small_pow_loop v base ws r) = small_pow_loop v base ws r.
Proof. pose proof pow_helper_erase. induction ws as [|w ws IH]; intros; cbn [c_small_pow_loop small_pow_loop]; oer. Qed.

Lemma small_pow_erase m e : snd (c_small_pow m e) = small_pow m e.
Proof.
  unfold c_small_pow, small_pow, c_small_pow_nontrivial, small_pow_nontrivial, c_ubig_le. pose proof pow_word_erase. pose proof small_pow_loop_erase. oer.
Qed.

Lemma window_erase {R} i j c (f : list Z -> counted (list Z * R)) g : (forall w, snd (f w) = g w) -> snd (c_window i j c f) = on_window i j c g.
Proof. intros F. unfold c_window, on_window. oer. Qed.

Lemma pow_table_erase count : forall i r self sq table mem, snd (c_pow_table count i r self sq table mem) = pow_table count i r self sq table mem.
Proof.
  pose proof mul_normalized_erase as M. induction count as [|count IH]; intros; cbn [c_pow_table pow_table]; [reflexivity|]. cbv zeta.
  rewrite snd_cbind. apply bind_ext; [|intros [? ?]; apply IH]. clear IH.
  destruct (i =? 1)%nat; apply window_erase; intros; unfold c_copy_slice; oer.
Qed.

Lemma square_times_erase k : forall m mem, snd (c_square_times k m mem) = square_times k m mem.
Proof. pose proof square_in_place_erase. induction k as [|k IH]; intros; cbn [c_square_times square_times]; oer. Qed.

Lemma large_pow_loop_erase fuel : forall self t ws n wl mem v bit,
  snd (c_large_pow_loop fuel self t ws n wl mem v bit) = large_pow_loop fuel self t ws n wl mem v bit.
Proof.
  pose proof square_in_place_erase. pose proof square_times_erase. pose proof mul_in_place_erase.
  induction fuel as [|fuel IH]; intros; cbn [c_large_pow_loop large_pow_loop]; [reflexivity|]. cbv zeta. oer.
Qed.

Lemma large_pow_erase m e : snd (c_large_pow m e) = large_pow m e.
Proof.
  pose proof large_mul_erase. pose proof pow_table_erase. pose proof large_pow_loop_erase. pose proof from_ubig_erase.
  unfold c_large_pow, large_pow, c_large_pow_nontrivial, large_pow_nontrivial, c_ubig_le. cbv zeta. oer.
Qed.

Lemma mod_pow_erase m e : snd (c_mod_pow m e) = mod_pow m e.
Proof. pose proof small_pow_erase. pose proof large_pow_erase. unfold c_mod_pow, mod_pow. oer. Qed.

End Erase.

Section Nonneg.
Context {A : Arch}.

Lemma modify_nn m f : (forall ws r, 0 <= fst (f ws r)) -> 0 <= fst (c_modify m f).
Proof. intros F. unfold c_modify. onn. Qed.

Lemma mul_normalized_nn r a b mem : 0 <= fst (c_mul_normalized r a b mem).
Proof.
  unfold c_mul_normalized, c_add_signed_mul_same_len, c_div_rem_in_place. cbv zeta.
  pose proof (same_len_nn (S (length a))) as S1. pose proof (div_rem_nn (S (length (rl_modulus r)))) as S2. unfold nonneg, div_nonneg in *. onn.
Qed.

Lemma mul_in_place_nn m v mem : 0 <= fst (c_mul_normalized_in_place m v mem).
Proof. apply modify_nn. intros. unfold c_copy_slice. pose proof mul_normalized_nn. onn. Qed.

Lemma square_in_place_nn m mem : 0 <= fst (c_large_square_in_place m mem).
Proof. apply modify_nn. intros. unfold c_copy_slice. pose proof mul_normalized_nn. onn. Qed.

Lemma mod_mul_nn a b : 0 <= fst (c_mod_mul_assign_r a b).
Proof. unfold c_mod_mul_assign_r, c_large_mul_in_place. pose proof mul_in_place_nn. onn. Qed.

Lemma from_ubig_nn x r : 0 <= fst (c_large_from_ubig x r).
Proof.
  unfold c_large_from_ubig, c_large_new, c_div_rem_in_place. cbv zeta.
  pose proof shl_v_nn. pose proof (div_rem_nn (S (length (rl_modulus r)))) as S2. unfold div_nonneg in *. onn.
Qed.

Lemma into_modulo_nn x r : 0 <= fst (c_ubig_into_modulo x r).
Proof. unfold c_ubig_into_modulo, c_small_from_ubig. pose proof from_ubig_nn. onn. Qed.

Lemma neg_nn a : 0 <= fst (c_mod_neg_v a).
Proof. unfold c_mod_neg_v, c_large_negate_in_place. destruct a; (apply nn_bind; [|intros; apply nn_free]); [apply nn_call|]. apply modify_nn. intros. onn. Qed.

Lemma mod_add_nn a b : 0 <= fst (c_mod_add_assign_r a b).
Proof.
  unfold c_mod_add_assign_r, c_large_add_in_place. destruct a, b; try apply nn_free; (apply nn_bind; [|intros; apply nn_free]); [apply nn_call|].
  apply nn_bind; [apply nn_free|]. intros ?. apply modify_nn. intros. onn.
Qed.

Lemma mod_sub_nn a b : 0 <= fst (c_mod_sub_assign_r a b).
Proof.
  unfold c_mod_sub_assign_r, c_large_sub_in_place. destruct a, b; try apply nn_free; (apply nn_bind; [|intros; apply nn_free]); [apply nn_call|].
  apply nn_bind; [apply nn_free|]. intros ?. apply modify_nn. intros. onn.
Qed.

Lemma mod_sub_swap_nn a b : 0 <= fst (c_mod_sub_rv a b).
Proof.
  unfold c_mod_sub_rv, c_large_sub_in_place_swap. destruct a, b; try apply nn_free; (apply nn_bind; [|intros; apply nn_free]); [apply nn_call|].
  apply nn_bind; [apply nn_free|]. intros ?. apply modify_nn. intros. onn.
Qed.

Lemma pow_helper_nn bits : forall v base e r, 0 <= fst (c_pow_helper bits v base e r).
Proof. induction bits as [|bits IH]; intros; cbn [c_pow_helper]; onn. Qed.

Lemma small_pow_loop_nn ws : forall v base r, 0 <= fst (c_small_pow_loop v base ws r).
Proof. pose proof pow_helper_nn. induction ws as [|w ws IH]; intros; cbn [c_small_pow_loop]; onn. Qed.

Lemma small_pow_nn m e : 0 <= fst (c_small_pow m e).
Proof. unfold c_small_pow, c_small_pow_nontrivial, c_ubig_le, c_pow_word. pose proof pow_helper_nn. pose proof small_pow_loop_nn. onn. Qed.

Lemma pow_table_nn count : forall i r self sq table mem, 0 <= fst (c_pow_table count i r self sq table mem).
Proof.
  pose proof mul_normalized_nn as M. induction count as [|count IH]; intros; cbn [c_pow_table]; [apply nn_free|]. cbv zeta.
  apply nn_bind; [|intros [? ?]; apply IH]. clear IH. destruct (i =? 1)%nat; apply nn_window; intros; unfold c_copy_slice; onn.
Qed.

Lemma square_times_nn k : forall m mem, 0 <= fst (c_square_times k m mem).
Proof. pose proof square_in_place_nn. induction k as [|k IH]; intros; cbn [c_square_times]; onn. Qed.

Lemma large_pow_loop_nn fuel : forall self t ws n wl mem v bit, 0 <= fst (c_large_pow_loop fuel self t ws n wl mem v bit).
Proof.
  pose proof square_in_place_nn. pose proof square_times_nn. pose proof mul_in_place_nn.
  induction fuel as [|fuel IH]; intros; cbn [c_large_pow_loop]; [apply nn_free|]. cbv zeta. onn.
Qed.

Lemma large_pow_nn m e : 0 <= fst (c_large_pow m e).
Proof.
  pose proof mul_in_place_nn. pose proof pow_table_nn. pose proof large_pow_loop_nn. pose proof from_ubig_nn.
  unfold c_large_pow, c_large_pow_nontrivial, c_ubig_le, c_large_mul_in_place. cbv zeta. onn.
Qed.

End Nonneg.

(** ** One product *)

Section Product.
Context {A : Arch}.

Lemma same_rate fuel c s a b mem H : rate (length a) H -> costs (c_same_len_fuel fuel c s a b mem) (H * len a + 1) (keeps (length c)).
Proof.
  intros [R1 R2]. destruct fuel as [|fuel]; [apply costs_panic|]. cbn [c_same_len_fuel]. step. step.
  destruct (length a <=? MAX_LEN_SIMPLE)%nat eqn:G; bits; unfold MAX_LEN_SIMPLE in G.
  - eapply costs_weaken; [apply simple_same_costs| |auto]. cbn [Z.of_nat]. unfold len. nia.
  - destruct (R2 fuel c s a b mem ltac:(lia)) as [R3 R4]. destruct (length a <=? MAX_LEN_KARATSUBA)%nat eqn:G2; bits; unfold MAX_LEN_KARATSUBA in G2.
    + eapply costs_weaken; [apply R3; exact G2| |auto]. cbn [Z.of_nat]. lia.
    + eapply costs_weaken; [apply R4; exact G2| |auto]. cbn [Z.of_nat]. lia.
Qed.

Section Ring.
Context (r : ring_large) (N : Z) (EN : N = len (rl_modulus r)) (N2 : 2 <= N).
Context (H W : Z) (RT : rate (length (rl_modulus r)) H) (DV : divides N W).

Context (W0 : 0 <= W).

(** The steps of a product, with copying the result and checking it. *)
Definition product_steps (N H W : Z) : Z := (H + 2 * W + 6) * N + 6.
Local Notation X := (product_steps N H W).

Lemma steps_pos : 6 <= X.
Proof. unfold product_steps. destruct RT as [H1 _]. assert (0 <= (H + 2 * W + 6) * N) by (apply Z.mul_nonneg_nonneg; lia). lia. Qed.

Lemma mul_normalized_costs a b mem :
  costs (c_mul_normalized r a b mem) ((H + 2 * W + 4) * N + 4) (fun p => len p = N).
Proof.
  unfold c_mul_normalized. cbv zeta. step. step. unfold c_add_signed_mul_same_len.
  match goal with L : length a = _ |- _ => pose proof L as La end.
  eapply costs_bind_keeps; [apply same_rate; rewrite La; exact RT|]. intros c1 o1 L1. cbv beta iota. step. step.
  unfold c_div_rem_in_place. eapply costs_bind_keeps; [apply DV; unfold len in *; lia|]. intros c2 o2 L2. cbv beta iota.
  eapply costs_weaken; [apply costs_call| |].
  - unfold len in *. nia.
  - cbv beta. intros p Ep. apply slice_to_len in Ep. unfold len in *. lia.
Qed.

Lemma copy_costs ws p : len p = N -> costs (c_copy_slice ws p) (N + 1) (fun x => x = p /\ length ws = length p).
Proof.
  intros L. unfold c_copy_slice. eapply costs_weaken; [apply costs_call|unfold len in L; lia|]. cbv beta. intros x E.
  unfold copy_slice in E. destruct (length ws =? length p)%nat eqn:G; [|discriminate]. bits. injection E as <-. auto.
Qed.

Lemma copy_product_costs ws a b mem :
  costs (p <+ c_mul_normalized r a b mem ;; c_copy_slice ws p) (X - N - 1) (fun p => len p = N).
Proof.
  eapply costs_bind; [apply mul_normalized_costs|]. cbv beta. intros p Lp. eapply costs_weaken; [apply copy_costs; exact Lp|unfold product_steps; lia|].
  cbv beta. intros x [-> _]. exact Lp.
Qed.

Lemma modify_costs m f : ml_ring m = r -> (forall ws, costs (f ws r) (X - N - 1) (fun p => len p = N)) ->
  costs (c_modify m f) X (fun y => ml_ring y = r).
Proof.
  intros E F. unfold c_modify. rewrite E. eapply costs_bind; [apply F|]. cbv beta. intros p Lp. step. step.
  apply costs_ok; [unfold len in Lp; lia|reflexivity].
Qed.

Lemma mul_in_place_costs m v mem : ml_ring m = r -> costs (c_mul_normalized_in_place m v mem) X (fun y => ml_ring y = r).
Proof. intros E. apply modify_costs; [exact E|]. intros ws. apply copy_product_costs. Qed.

Lemma square_costs m mem : ml_ring m = r -> costs (c_large_square_in_place m mem) X (fun y => ml_ring y = r).
Proof. intros E. apply modify_costs; [exact E|]. intros ws. apply copy_product_costs. Qed.

Lemma square_times_costs k mem : forall m, ml_ring m = r -> costs (c_square_times k m mem) (Z.of_nat k * X) (fun y => ml_ring y = r).
Proof.
  induction k as [|k IH]; intros m E; cbn [c_square_times]; [apply costs_ok; [lia|exact E]|].
  eapply costs_bind; [apply square_costs; exact E|]. cbv beta. intros y Ey. eapply costs_weaken; [apply IH; exact Ey|lia|auto].
Qed.

Lemma pow_table_costs count self sq mem : forall i table, costs (c_pow_table count i r self sq table mem) (Z.of_nat count * X) (fun _ => True).
Proof.
  induction count as [|count IH]; intros i table; cbn [c_pow_table]; [apply costs_ok; [lia|exact I]|]. cbv zeta.
  match goal with |- costs (cbind ?m ?k) _ _ => apply (costs_bind m k X _ (fun _ => True)) end.
  2: { intros [t ?] _. eapply costs_weaken; [apply IH|lia|auto]. }
  clear IH. destruct (i =? 1)%nat; (eapply costs_weaken; [apply costs_window|apply Z.le_refl|auto]); intros w Lw G.
  - eapply costs_bind; [apply mul_normalized_costs|]. cbv beta. intros p Lp.
    eapply costs_bind; [apply copy_costs; exact Lp|]. cbv beta. intros q [-> Lq]. apply costs_ok; [unfold product_steps; lia|unfold keeps; cbn [fst]; lia].
  - step. eapply costs_bind; [apply mul_normalized_costs|]. cbv beta. intros p Lp.
    eapply costs_bind; [apply copy_costs; exact Lp|]. cbv beta. intros q [-> Lq]. apply costs_ok; [unfold product_steps; lia|].
    unfold keeps. cbn [fst]. rewrite app_length. lia.
Qed.


End Ring.
End Product.
