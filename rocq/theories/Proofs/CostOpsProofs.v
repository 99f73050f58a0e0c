(** Counting what the operators of [UBig] do (Model/CostOps.v). *)
From Coq Require Import Lia.
From Verif Require Import Model.Base Model.Words Model.Add Model.Shift Model.FastDivide Model.DivWord Model.Memory
  Model.Mul Model.Div Model.RawMemory Model.Buffer Model.UBig Model.IBig Model.Convert Model.AddOps Model.MulOps
  Model.DivOps Model.Bits Model.Pow Model.Cost Model.CostDiv Model.CostOps Spec.Val.
From Verif Require Import Proofs.Basics Proofs.CostProofs Proofs.CostBounds Proofs.CostTheorems Proofs.CostRates Proofs.CostDivProofs.

Section Erase.
Context {A : Arch}.

Lemma on_words_erase {R} b (f : list Z -> counted (list Z * R)) g : (forall w, snd (f w) = g w) -> snd (c_on_words b f) = on_words b g.
Proof. intros F. unfold c_on_words, on_words. rewrite snd_cbind. apply bind_ext; [apply F|]. intros [w r]. reflexivity. Qed.

End Erase.

Ltac pairs x := match type of x with
  | ((_ * _) * _)%type => destruct x as [[? ?] ?] | (_ * _)%type => destruct x as [? ?] | _ => idtac end.
Ltac oer1 := first
  [ match goal with H : forall _, _ |- _ => apply H end
  | rewrite snd_cbind; apply bind_ext; [|let x := fresh "x" in intros x; pairs x; cbv beta iota]
  | rewrite snd_free | rewrite snd_call
  | apply on_words_erase; intros
  | reflexivity
  | match goal with |- context [match ?x with _ => _ end] => destruct x end ].
Ltac oer := repeat oer1.

Section Erase2.
Context {A : Arch}.

Lemma mul_large_word_erase b a : snd (c_mul_large_word b a) = mul_large_word b a.
Proof. unfold c_mul_large_word, mul_large_word, c_from_buffer, c_push_may_reallocate. oer. Qed.

Lemma mul_large_erase l r : snd (c_mul_large l r) = mul_large l r.
Proof.
  unfold c_mul_large, mul_large, c_from_buffer.
  assert (H : forall c s a b mem, snd (c_add_signed_mul c s a b mem) = add_signed_mul c s a b mem) by (intros; unfold c_add_signed_mul, add_signed_mul; apply add_signed_mul_erase).
  oer.
Qed.

Lemma mul_vv_erase a b : snd (c_ubig_mul_vv a b) = ubig_mul_vv a b.
Proof. unfold c_ubig_mul_vv, ubig_mul_vv, c_mul_word. destruct a, b; try reflexivity; try apply mul_large_word_erase. apply mul_large_erase. Qed.

Lemma mul_vr_erase a b : snd (c_ubig_mul_vr a b) = ubig_mul_vr a b.
Proof.
  unfold c_ubig_mul_vr, ubig_mul_vr, c_mul_word, c_buffer_clone. pose proof mul_large_word_erase. pose proof mul_large_erase. oer.
Qed.

Lemma mul_rr_erase a b : snd (c_ubig_mul_rr a b) = ubig_mul_rr a b.
Proof.
  unfold c_ubig_mul_rr, ubig_mul_rr, c_mul_word, c_buffer_clone. pose proof mul_large_word_erase. pose proof mul_large_erase. oer.
Qed.

Lemma add_large_word_erase b a : snd (c_add_large_word b a) = add_large_word b a.
Proof. unfold c_add_large_word, add_large_word, c_from_buffer, c_push_may_reallocate. oer. Qed.

Lemma add_large_erase b r : snd (c_add_large b r) = add_large b r.
Proof. unfold c_add_large, add_large, c_from_buffer, c_push_may_reallocate. cbv zeta. oer. Qed.

Lemma add_vv_erase a b : snd (c_ubig_add_vv a b) = ubig_add_vv a b.
Proof.
  unfold c_ubig_add_vv, ubig_add_vv, c_add_word. pose proof add_large_word_erase. pose proof add_large_erase. oer.
Qed.

Lemma pow_loop_erase p : forall self exp r, snd (c_pow_loop p self exp r) = pow_loop p self exp r.
Proof.
  pose proof mul_vr_erase as V. pose proof mul_rr_erase as R.
  induction p as [|p IH]; intros; cbn [c_pow_loop pow_loop]; unfold ubig_mul_assign_r; oer.
Qed.

Lemma pow_erase u e : snd (c_ubig_pow u e) = ubig_pow u e.
Proof.
  unfold c_ubig_pow, ubig_pow, c_pow_large, pow_large. pose proof mul_rr_erase. pose proof pow_loop_erase. oer.
Qed.

Lemma div_rem_large_word_erase b a : snd (c_div_rem_large_word b a) = div_rem_large_word b a.
Proof. unfold c_div_rem_large_word, div_rem_large_word, c_from_buffer. oer. Qed.

Lemma div_rem_in_lhs_erase l r : snd (c_div_rem_in_lhs l r) = div_rem_in_lhs l r.
Proof.
  unfold c_div_rem_in_lhs, div_rem_in_lhs, c_push_may_reallocate. cbv zeta.
  assert (H : forall l r f mem, snd (c_div_rem_in_place l r f mem) = div_rem_in_place l r f mem) by (intros; unfold c_div_rem_in_place, div_rem_in_place; apply div_rem_erase).
  oer.
Qed.

Lemma div_large_erase l r : snd (c_div_large l r) = div_large l r.
Proof. unfold c_div_large, div_large, c_from_buffer. pose proof div_rem_in_lhs_erase. oer. Qed.

Lemma rem_large_erase l r : snd (c_rem_large l r) = rem_large l r.
Proof. unfold c_rem_large, rem_large, c_from_buffer, c_take_rem. pose proof div_rem_in_lhs_erase. oer. Qed.

Lemma div_rem_large_erase l r : snd (c_div_rem_large l r) = div_rem_large l r.
Proof. unfold c_div_rem_large, div_rem_large, c_from_buffer, c_take_rem. cbv zeta. pose proof div_rem_in_lhs_erase. oer. Qed.

Lemma div_rem_vv_erase a b : snd (c_ubig_div_rem_vv a b) = ubig_div_rem_vv a b.
Proof.
  unfold c_ubig_div_rem_vv, ubig_div_rem_vv, c_from_buffer. pose proof div_rem_large_word_erase. pose proof div_rem_large_erase. oer.
Qed.

Lemma div_rem_vr_erase a b : snd (c_ubig_div_rem_vr a b) = ubig_div_rem_vr a b.
Proof.
  unfold c_ubig_div_rem_vr, ubig_div_rem_vr, c_from_buffer, c_buffer_clone. pose proof div_rem_large_word_erase. pose proof div_rem_large_erase. oer.
Qed.

Lemma div_rem_rr_erase a b : snd (c_ubig_div_rem_rr a b) = ubig_div_rem_rr a b.
Proof.
  unfold c_ubig_div_rem_rr, ubig_div_rem_rr, c_from_buffer, c_buffer_clone. pose proof div_rem_large_word_erase. pose proof div_rem_large_erase. oer.
Qed.

Lemma nn_on_words {R} b (f : list Z -> counted (list Z * R)) : (forall w, 0 <= fst (f w)) -> 0 <= fst (c_on_words b f).
Proof. intros F. unfold c_on_words. apply nn_bind; [apply F|]. intros [w r]. apply nn_free. Qed.

End Erase2.

Ltac onn1 := first
  [ apply nn_free | apply nn_call
  | match goal with H : forall _, _ |- _ => apply H end
  | apply nn_bind; [|let x := fresh "x" in intros x; pairs x; cbv beta iota]
  | apply nn_on_words; intros
  | match goal with |- context [match ?x with _ => _ end] => destruct x end ].
Ltac onn := repeat onn1.

Section Nonneg.
Context {A : Arch}.

Lemma from_buffer_nn b : 0 <= fst (c_from_buffer b). Proof. apply nn_call. Qed.

Lemma mul_large_word_nn b a : 0 <= fst (c_mul_large_word b a).
Proof. unfold c_mul_large_word, c_from_buffer, c_push_may_reallocate. onn. Qed.

Lemma mul_large_nn l r : 0 <= fst (c_mul_large l r).
Proof.
  unfold c_mul_large, c_from_buffer.
  assert (H : forall c s a b mem, 0 <= fst (c_add_signed_mul c s a b mem)) by (intros; unfold c_add_signed_mul; apply add_signed_mul_nn).
  onn.
Qed.

Lemma mul_vr_nn a b : 0 <= fst (c_ubig_mul_vr a b).
Proof. unfold c_ubig_mul_vr, c_mul_word, c_buffer_clone. pose proof mul_large_word_nn. pose proof mul_large_nn. onn. Qed.

Lemma mul_vv_nn a b : 0 <= fst (c_ubig_mul_vv a b).
Proof. unfold c_ubig_mul_vv, c_mul_word. pose proof mul_large_word_nn. pose proof mul_large_nn. onn. Qed.

Lemma mul_rr_nn a b : 0 <= fst (c_ubig_mul_rr a b).
Proof. unfold c_ubig_mul_rr, c_mul_word, c_buffer_clone. pose proof mul_large_word_nn. pose proof mul_large_nn. onn. Qed.

Lemma add_vv_nn a b : 0 <= fst (c_ubig_add_vv a b).
Proof.
  unfold c_ubig_add_vv, c_add_word, c_add_large_word, c_add_large, c_from_buffer, c_push_may_reallocate. cbv zeta. onn.
Qed.

Lemma pow_loop_nn p : forall self exp r, 0 <= fst (c_pow_loop p self exp r).
Proof.
  pose proof mul_vr_nn. pose proof mul_rr_nn. induction p as [|p IH]; intros; cbn [c_pow_loop]; onn.
Qed.

Lemma pow_nn u e : 0 <= fst (c_ubig_pow u e).
Proof. unfold c_ubig_pow, c_pow_large. pose proof mul_rr_nn. pose proof pow_loop_nn. onn. Qed.

Lemma div_rem_in_lhs_nn l r : 0 <= fst (c_div_rem_in_lhs l r).
Proof.
  unfold c_div_rem_in_lhs, c_push_may_reallocate. cbv zeta.
  assert (H : forall l r f mem, 0 <= fst (c_div_rem_in_place l r f mem)) by (intros; unfold c_div_rem_in_place; apply div_rem_nn). onn.
Qed.

Lemma div_rem_large_nn l r : 0 <= fst (c_div_rem_large l r).
Proof. unfold c_div_rem_large, c_from_buffer, c_take_rem. cbv zeta. pose proof div_rem_in_lhs_nn. onn. Qed.

Lemma div_rem_large_word_nn b a : 0 <= fst (c_div_rem_large_word b a).
Proof. unfold c_div_rem_large_word, c_from_buffer. onn. Qed.

Lemma div_rem_vv_nn a b : 0 <= fst (c_ubig_div_rem_vv a b).
Proof. unfold c_ubig_div_rem_vv, c_from_buffer. pose proof div_rem_large_word_nn. pose proof div_rem_large_nn. onn. Qed.

Lemma div_rem_vr_nn a b : 0 <= fst (c_ubig_div_rem_vr a b).
Proof. unfold c_ubig_div_rem_vr, c_from_buffer, c_buffer_clone. pose proof div_rem_large_word_nn. pose proof div_rem_large_nn. onn. Qed.

Lemma div_rem_rr_nn a b : 0 <= fst (c_ubig_div_rem_rr a b).
Proof. unfold c_ubig_div_rem_rr, c_from_buffer, c_buffer_clone. pose proof div_rem_large_word_nn. pose proof div_rem_large_nn. onn. Qed.

End Nonneg.
