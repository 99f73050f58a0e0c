(** The counter of Model/Cost.v: it changes nothing, and how high it gets. *)
From Coq Require Import Lia.
From Verif Require Import Model.Base Model.Words Model.Add Model.Shift Model.FastDivide Model.DivWord Model.Memory
  Model.Mul Model.Cost Spec.Val.
From Verif Require Import Proofs.Basics.

Section Erase.
Context {A : Arch}.

Lemma cbind_eq {S T} (m : counted S) (k : S -> counted T) :
  cbind m k = match snd m with Ok x => (fst m + fst (k x), snd (k x)) | Panic p => (fst m, Panic p) end.
Proof. destruct m as [n [x|p]]; cbn; [|reflexivity]. now destruct (k x). Qed.

Lemma snd_cbind {S T} (m : counted S) (k : S -> counted T) : snd (cbind m k) = bind (snd m) (fun x => snd (k x)).
Proof. rewrite cbind_eq. destruct (snd m); reflexivity. Qed.

Lemma bind_ext {S T} (m m' : res S) (k k' : S -> res T) : m = m' -> (forall x, k x = k' x) -> bind m k = bind m' k'.
Proof. intros -> K. destruct m'; cbn; auto. Qed.

Lemma snd_free {T} (m : res T) : snd (free m) = m. Proof. reflexivity. Qed.
Lemma snd_call {T} n (m : res T) : snd (call n m) = m. Proof. reflexivity. Qed.

Lemma snd_window {R} i j c (f : list Z -> counted (list Z * R)) g : (forall w, snd (f w) = g w) ->
  snd (c_window i j c f) = on_window i j c g.
Proof.
  intros F. unfold c_window, on_window. destruct ((i <=? j)%nat && (j <=? length c)%nat); [|reflexivity].
  rewrite snd_cbind. apply bind_ext; [apply F|]. intros [w r]. reflexivity.
Qed.

Ltac er1 := first
  [ reflexivity
  | rewrite snd_cbind; apply bind_ext; [|let x := fresh "x" in intros x; match type of x with (_ * _)%type => destruct x as [? ?] | _ => idtac end]
  | rewrite snd_free | rewrite snd_call
  | apply snd_window; intros
  | match goal with H : forall _, _ |- _ => apply H end
  | match goal with |- context [match ?x with _ => _ end] => destruct x end ].
Ltac er := repeat er1.

Lemma add_loop_erase b : forall c a k, snd (c_add_mul_chunk_loop c a b k) = add_mul_chunk_loop c a b k.
Proof. induction b; intros; cbn [c_add_mul_chunk_loop add_mul_chunk_loop]; er. Qed.

Lemma sub_loop_erase b : forall c a k, snd (c_sub_mul_chunk_loop c a b k) = sub_mul_chunk_loop c a b k.
Proof. induction b; intros; cbn [c_sub_mul_chunk_loop sub_mul_chunk_loop]; er. Qed.

Lemma add_chunk_erase c a b : snd (c_add_mul_chunk c a b) = add_mul_chunk c a b.
Proof. unfold c_add_mul_chunk, add_mul_chunk. pose proof add_loop_erase. er. Qed.

Lemma sub_chunk_erase c a b : snd (c_sub_mul_chunk c a b) = sub_mul_chunk c a b.
Proof. unfold c_sub_mul_chunk, sub_mul_chunk. pose proof sub_loop_erase. er. Qed.

Lemma simple_erase c s a b mem : snd (c_simple_add_signed_mul_chunk c s a b mem) = simple_add_signed_mul_chunk c s a b mem.
Proof.
  unfold c_simple_add_signed_mul_chunk, simple_add_signed_mul_chunk. pose proof add_chunk_erase. pose proof sub_chunk_erase. er.
Qed.

Lemma simple_same_erase c s a b mem :
  snd (c_simple_add_signed_mul_same_len c s a b mem) = simple_add_signed_mul_same_len c s a b mem.
Proof. unfold c_simple_add_signed_mul_same_len, simple_add_signed_mul_same_len. pose proof simple_erase. er. Qed.

Definition erases (f : c_mul_fn) (g : mul_fn) : Prop := forall c s a b mem, snd (f c s a b mem) = g c s a b mem.

Lemma chunks_loop_erase f f' r r' : erases f f' -> erases r r' -> forall fuel c s a b cl mem k,
  snd (c_split_chunks_loop fuel f r c s a b cl mem k) = split_chunks_loop fuel f' r' c s a b cl mem k.
Proof.
  unfold erases. intros F R fuel. induction fuel; intros; cbn [c_split_chunks_loop split_chunks_loop]; er.
Qed.

Lemma chunks_erase f f' r r' c s a b cl mem : erases f f' -> erases r r' ->
  snd (c_add_signed_mul_split_into_chunks f r c s a b cl mem) = add_signed_mul_split_into_chunks f' r' c s a b cl mem.
Proof.
  intros F R. unfold c_add_signed_mul_split_into_chunks, add_signed_mul_split_into_chunks.
  pose proof (chunks_loop_erase f f' r r' F R). er.
Qed.

Lemma karatsuba_erase r r' : erases r r' -> erases (c_karatsuba_same_len r) (karatsuba_same_len r').
Proof. unfold erases. intros R c s a b mem. unfold c_karatsuba_same_len, karatsuba_same_len. cbv zeta. er. Qed.

Lemma toom_erase r r' : erases r r' -> erases (c_toom_3_same_len r) (toom_3_same_len r').
Proof. unfold erases. intros R c s a b mem. unfold c_toom_3_same_len, toom_3_same_len. cbv zeta. er. Qed.

Lemma same_len_erase fuel : erases (c_same_len_fuel fuel) (same_len_fuel fuel).
Proof.
  induction fuel as [|fuel IH]; intros c s a b mem; [reflexivity|].
  cbn [c_same_len_fuel same_len_fuel]. cbv zeta. rewrite snd_cbind, snd_call. cbn [bind].
  pose proof simple_same_erase. pose proof (karatsuba_erase _ _ IH). pose proof (toom_erase _ _ IH). unfold erases in *. er.
Qed.

Theorem add_signed_mul_erase fuel : erases (c_add_signed_mul_fuel fuel) (add_signed_mul_fuel fuel).
Proof.
  induction fuel as [|fuel IH]; intros c s a b mem; [reflexivity|].
  cbn [c_add_signed_mul_fuel add_signed_mul_fuel]. rewrite snd_cbind, snd_call. cbn [bind].
  rewrite snd_cbind, snd_free. apply bind_ext; [reflexivity|]. intros _.
  destruct (if (length a <? length b)%nat then (b, a) else (a, b)) as [a' b'].
  pose proof simple_erase as SE. pose proof (karatsuba_erase _ _ (same_len_erase fuel)) as KE.
  pose proof (toom_erase _ _ (same_len_erase fuel)) as TE. unfold erases in *.
  destruct (length b' <=? MAX_LEN_SIMPLE)%nat; [|destruct (length b' <=? MAX_LEN_KARATSUBA)%nat];
    repeat (rewrite snd_cbind, snd_free; apply bind_ext; [reflexivity|intros _]).
  - destruct (length a' <=? CHUNK_LEN)%nat; [apply SE|]. now apply chunks_erase.
  - now apply chunks_erase.
  - now apply chunks_erase.
Qed.

(** *** The counter is not negative. *)

Lemma nn_bind {S T} (m : counted S) (k : S -> counted T) : 0 <= fst m -> (forall x, 0 <= fst (k x)) -> 0 <= fst (cbind m k).
Proof. rewrite cbind_eq. intros M K. destruct (snd m) as [x|]; cbn [fst]; [specialize (K x)|]; lia. Qed.

Lemma nn_free {T} (m : res T) : 0 <= fst (free m). Proof. cbn. lia. Qed.
Lemma nn_call {T} n (m : res T) : 0 <= fst (call n m). Proof. cbn. lia. Qed.

Lemma nn_window {R} i j c (f : list Z -> counted (list Z * R)) : (forall w, 0 <= fst (f w)) -> 0 <= fst (c_window i j c f).
Proof. intros F. unfold c_window. destruct (_ && _); [|apply nn_free]. apply nn_bind; [apply F|]. intros [w r]. apply nn_free. Qed.

Ltac nn1 := first
  [ apply nn_free | apply nn_call
  | apply nn_bind; [|let x := fresh "x" in intros x; match type of x with (_ * _)%type => destruct x as [? ?] | _ => idtac end]
  | apply nn_window; intros
  | match goal with H : forall _, _ |- _ => apply H end
  | match goal with |- context [match ?x with _ => _ end] => destruct x end ].
Ltac nn := repeat nn1.

Definition nonneg (f : c_mul_fn) : Prop := forall c s a b mem, 0 <= fst (f c s a b mem).

Lemma add_loop_nn b : forall c a k, 0 <= fst (c_add_mul_chunk_loop c a b k).
Proof. induction b; intros; cbn [c_add_mul_chunk_loop]; nn. Qed.

Lemma sub_loop_nn b : forall c a k, 0 <= fst (c_sub_mul_chunk_loop c a b k).
Proof. induction b; intros; cbn [c_sub_mul_chunk_loop]; nn. Qed.

Lemma simple_nn : nonneg c_simple_add_signed_mul_chunk.
Proof.
  intros c s a b mem. unfold c_simple_add_signed_mul_chunk, c_add_mul_chunk, c_sub_mul_chunk.
  pose proof add_loop_nn. pose proof sub_loop_nn. nn.
Qed.

Lemma karatsuba_nn r : nonneg r -> nonneg (c_karatsuba_same_len r).
Proof. unfold nonneg. intros R c s a b mem. unfold c_karatsuba_same_len. cbv zeta. nn. Qed.

Lemma toom_nn r : nonneg r -> nonneg (c_toom_3_same_len r).
Proof. unfold nonneg. intros R c s a b mem. unfold c_toom_3_same_len. cbv zeta. nn. Qed.

Lemma same_len_nn fuel : nonneg (c_same_len_fuel fuel).
Proof.
  induction fuel as [|fuel IH]; intros c s a b mem; cbn [c_same_len_fuel]; [apply nn_free|]. cbv zeta.
  apply nn_bind; [apply nn_call|intros _]. apply nn_bind; [apply nn_free|intros _].
  destruct (_ <=? _)%nat; [|destruct (_ <=? _)%nat].
  - unfold c_simple_add_signed_mul_same_len. do 2 (apply nn_bind; [apply nn_free|intros _]). apply simple_nn.
  - apply karatsuba_nn, IH.
  - apply toom_nn, IH.
Qed.

Lemma chunks_nn f r : nonneg f -> nonneg r -> forall fuel c s a b cl mem k, 0 <= fst (c_split_chunks_loop fuel f r c s a b cl mem k).
Proof. unfold nonneg. intros F R fuel. induction fuel; intros; cbn [c_split_chunks_loop]; nn. Qed.

Lemma split_nn f r c s a b cl mem : nonneg f -> nonneg r -> 0 <= fst (c_add_signed_mul_split_into_chunks f r c s a b cl mem).
Proof. intros F R. pose proof (chunks_nn f r F R). unfold c_add_signed_mul_split_into_chunks. nn. Qed.

Lemma add_signed_mul_nn fuel : nonneg (c_add_signed_mul_fuel fuel).
Proof.
  induction fuel as [|fuel IH]; intros c s a b mem; cbn [c_add_signed_mul_fuel]; [apply nn_free|].
  apply nn_bind; [apply nn_call|intros _]. apply nn_bind; [apply nn_free|intros _].
  destruct (if (length a <? length b)%nat then (b, a) else (a, b)) as [a' b']. pose proof simple_nn.
  destruct (_ <=? _)%nat; [|destruct (_ <=? _)%nat]; (apply nn_bind; [apply nn_free|intros _]).
  - apply nn_bind; [apply nn_free|intros _]. destruct (_ <=? _)%nat; [apply simple_nn|]. now apply split_nn.
  - apply split_nn; [|exact IH]. apply karatsuba_nn, same_len_nn.
  - apply split_nn; [|exact IH]. apply toom_nn, same_len_nn.
Qed.

End Erase.

Section Bounds.
Context {A : Arch}.

(** If it returns, [m] takes at most [N] steps and the result satisfies [P]. *)
Definition costs {T} (m : counted T) (N : Z) (P : T -> Prop) : Prop :=
  forall x, snd m = Ok x -> fst m <= N /\ P x.

Lemma costs_bind {S T} (m : counted S) (k : S -> counted T) x N Q P :
  costs m x Q -> (forall v, Q v -> costs (k v) (N - x) P) -> costs (cbind m k) N P.
Proof.
  unfold costs. rewrite cbind_eq. intros M K y. destruct (snd m) as [v|p] eqn:E; cbn [fst snd]; [|discriminate].
  intros EY. destruct (M v eq_refl) as [M1 M2]. destruct (K v M2 y EY) as [K1 K2]. split; [lia|auto].
Qed.

Lemma costs_call {T} n (m : res T) : costs (call n m) (Z.of_nat n + 1) (fun x => m = Ok x).
Proof. intros x E. cbn in *. split; [lia|auto]. Qed.

Lemma costs_free {T} (m : res T) : costs (free m) 0 (fun x => m = Ok x).
Proof. intros x E. cbn in *. split; [lia|auto]. Qed.

Lemma costs_ok {T} (x : T) N (P : T -> Prop) : 0 <= N -> P x -> costs (free (Ok x)) N P.
Proof. intros H1 H2 y E. cbn in *. injection E as <-. auto. Qed.

Lemma costs_panic {T} p N (P : T -> Prop) : costs (free (Panic p)) N P.
Proof. intros y E. discriminate. Qed.

Lemma costs_weaken {T} (m : counted T) N N' (P P' : T -> Prop) : costs m N P -> N <= N' -> (forall x, P x -> P' x) -> costs m N' P'.
Proof. intros C L I x E. destruct (C x E). split; [lia|auto]. Qed.

(** Slices keep their length. *)
Definition keeps {R} (n : nat) (x : list Z * R) : Prop := length (fst x) = n.

Lemma costs_window {R} i j c (f : list Z -> counted (list Z * R)) N :
  (forall w, length w = (j - i)%nat -> (i <= j <= length c)%nat -> costs (f w) N (keeps (length w))) ->
  costs (c_window i j c f) N (fun x => keeps (length c) x /\ (i <= j <= length c)%nat).
Proof.
  intros F x. unfold c_window. destruct ((i <=? j)%nat && (j <=? length c)%nat) eqn:G; [|discriminate].
  apply andb_prop in G. destruct G as [G1 G2]. apply Nat.leb_le in G1, G2.
  assert (L : length (firstn (j - i) (skipn i c)) = (j - i)%nat) by (rewrite firstn_length, skipn_length; lia).
  specialize (F _ L (conj G1 G2)). rewrite cbind_eq. unfold costs in *. destruct (snd (f _)) as [[w r]|p]; cbn [fst snd free]; [|discriminate].
  destruct (F (w, r) eq_refl) as [F1 F2]. unfold keeps in *. cbn [fst] in *. intros E. injection E as <-. split; [lia|]. cbn [fst].
  rewrite !app_length, firstn_length, skipn_length. lia.
Qed.

Lemma check_ok {T} (b : bool) (k : res T) x : (check b ;; k) = Ok x -> b = true /\ k = Ok x.
Proof. destruct b; cbn; [auto|discriminate]. Qed.

Lemma assert_ok (b : bool) u : Base.assert b = Ok u -> b = true.
Proof. destruct b; cbn; [auto|discriminate]. Qed.

Lemma bind_inv {S T} (m : res S) (k : S -> res T) x : bind m k = Ok x -> exists y, m = Ok y /\ k y = Ok x.
Proof. destruct m; cbn; [eauto|discriminate]. Qed.

Lemma split_len {T} n (l l1 l2 : list T) : split_at n l = Ok (l1, l2) -> length l1 = n /\ length l2 = (length l - n)%nat /\ (n <= length l)%nat.
Proof.
  unfold split_at. destruct (n <=? length l)%nat eqn:E; [|discriminate]. apply Nat.leb_le in E. intros H. injection H as <- <-.
  rewrite firstn_length, skipn_length. lia.
Qed.

Lemma slice_to_len {T} n (l r : list T) : slice_to n l = Ok r -> length r = n /\ (n <= length l)%nat.
Proof.
  unfold slice_to. destruct (n <=? length l)%nat eqn:E; [|discriminate]. apply Nat.leb_le in E. intros H. injection H as <-.
  rewrite firstn_length. lia.
Qed.

Lemma slice_from_len {T} n (l r : list T) : slice_from n l = Ok r -> length r = (length l - n)%nat /\ (n <= length l)%nat.
Proof.
  unfold slice_from. destruct (n <=? length l)%nat eqn:E; [|discriminate]. apply Nat.leb_le in E. intros H. injection H as <-.
  rewrite skipn_length. lia.
Qed.

(** *** The primitives keep the length. *)

Lemma add_one_len ws : length (fst (add_one_in_place ws)) = length ws.
Proof.
  induction ws as [|w ws IH]; [reflexivity|]. cbn [add_one_in_place]. destruct (overflowing_add w 1) as [a o]. destruct (negb o); [reflexivity|].
  destruct (add_one_in_place ws). cbn in *. lia.
Qed.

Lemma sub_one_len ws : length (fst (sub_one_in_place ws)) = length ws.
Proof.
  induction ws as [|w ws IH]; [reflexivity|]. cbn [sub_one_in_place]. destruct (overflowing_sub w 1) as [a o]. destruct (negb o); [reflexivity|].
  destruct (sub_one_in_place ws). cbn in *. lia.
Qed.

Lemma add_loop_len ws : forall rhs c, length (fst (add_loop ws rhs c)) = length ws.
Proof.
  induction ws as [|w ws IH]; intros [|r rhs] c; try reflexivity. cbn [add_loop]. destruct (add_with_carry w r c) as [s c1].
  specialize (IH rhs c1). destruct (add_loop ws rhs c1). cbn in *. lia.
Qed.

Lemma sub_loop_len ws : forall rhs c, length (fst (sub_loop ws rhs c)) = length ws.
Proof.
  induction ws as [|w ws IH]; intros [|r rhs] c; try reflexivity. cbn [sub_loop]. destruct (sub_with_borrow w r c) as [s c1].
  specialize (IH rhs c1). destruct (sub_loop ws rhs c1). cbn in *. lia.
Qed.

Ltac inv H := first
  [ match type of H with (check _ ;; _) = Ok _ => apply check_ok in H; destruct H as [?C H] end
  | match type of H with bind _ _ = Ok _ => apply bind_inv in H; let y := fresh "y" in let E := fresh "E" in destruct H as (y & E & H);
      try (destruct y as [? ?]) end
  | match type of H with Ok _ = Ok _ => injection H; clear H; intros; subst end
  | discriminate ].

Lemma add_same_len ws rhs w' o : add_same_len_in_place ws rhs = Ok (w', o) -> length w' = length ws.
Proof. unfold add_same_len_in_place. intros H. inv H. pose proof (add_loop_len ws rhs false) as L. destruct (add_loop ws rhs false). inv H. exact L. Qed.

Lemma sub_same_len ws rhs w' o : sub_same_len_in_place ws rhs = Ok (w', o) -> length w' = length ws.
Proof. unfold sub_same_len_in_place. intros H. inv H. pose proof (sub_loop_len ws rhs false) as L. destruct (sub_loop ws rhs false). inv H. exact L. Qed.

Lemma sub_swap_len ws rhs w' o : sub_same_len_in_place_swap ws rhs = Ok (w', o) -> length w' = length ws /\ length ws = length rhs.
Proof.
  unfold sub_same_len_in_place_swap. intros H. inv H. apply Nat.eqb_eq in C. pose proof (sub_loop_len ws rhs false) as L.
  destruct (sub_loop ws rhs false). inv H. split; [exact L|exact C].
Qed.

Lemma add_word_len ws r w' o : add_word_in_place ws r = Ok (w', o) -> length w' = length ws.
Proof.
  destruct ws as [|w ws]; cbn [add_word_in_place]; [discriminate|]. destruct (overflowing_add w r) as [a [|]].
  - pose proof (add_one_len ws) as L. destruct (add_one_in_place ws). intros H. inv H. cbn in *. lia.
  - intros H. inv H. reflexivity.
Qed.

Lemma sub_word_len ws r w' o : sub_word_in_place ws r = Ok (w', o) -> length w' = length ws.
Proof.
  destruct ws as [|w ws]; cbn [sub_word_in_place]; [discriminate|]. destruct (overflowing_sub w r) as [a [|]].
  - pose proof (sub_one_len ws) as L. destruct (sub_one_in_place ws). intros H. inv H. cbn in *. lia.
  - intros H. inv H. reflexivity.
Qed.

Lemma add_in_place_len ws rhs w' o : add_in_place ws rhs = Ok (w', o) -> length w' = length ws.
Proof.
  unfold add_in_place. intros H. inv H. apply split_len in E. inv H. apply add_same_len in E0. destruct b.
  - pose proof (add_one_len l0) as L. destruct (add_one_in_place l0). inv H. rewrite app_length. cbn [fst] in *. lia.
  - inv H. rewrite app_length. lia.
Qed.

Lemma sub_in_place_len ws rhs w' o : sub_in_place ws rhs = Ok (w', o) -> length w' = length ws.
Proof.
  unfold sub_in_place. intros H. inv H. apply split_len in E. inv H. apply sub_same_len in E0. destruct b.
  - pose proof (sub_one_len l0) as L. destruct (sub_one_in_place l0). inv H. rewrite app_length. cbn [fst] in *. lia.
  - inv H. rewrite app_length. lia.
Qed.

Lemma upd_len {T} i (v : T) l : length (upd i v l) = length l.
Proof. revert i. induction l as [|x l IH]; intros [|i]; cbn; auto. Qed.

Lemma sub_sign_eq_len n : forall lhs rhs w' s, sub_sign_eq_loop lhs rhs n = Ok (w', s) -> length w' = length lhs.
Proof.
  induction n as [|m IH]; intros lhs rhs w' s; cbn [sub_sign_eq_loop].
  - intros H. inv H. reflexivity.
  - destruct (nth m lhs 0 ?= nth m rhs 0); intros H.
    + apply IH in H. rewrite upd_len in H. exact H.
    + repeat inv H. apply split_len in E. apply slice_to_len in E0. apply sub_swap_len in E1. rewrite app_length. lia.
    + repeat inv H. apply split_len in E. apply slice_to_len in E0. apply sub_same_len in E1. rewrite app_length. lia.
Qed.

Lemma sub_sign_len lhs rhs w' s : sub_in_place_with_sign lhs rhs = Ok (w', s) -> length w' = length lhs.
Proof.
  unfold sub_in_place_with_sign. cbv zeta. intros H. inv H.
  destruct (trim_len lhs (length lhs) ?= trim_len rhs (length rhs))%nat.
  - now apply sub_sign_eq_len in H.
  - repeat inv H. apply split_len in E, E2. apply slice_to_len in E0, E3. apply sub_swap_len in E1. destruct b.
    + pose proof (sub_one_len y0) as L. destruct (sub_one_in_place y0). repeat inv H. rewrite !app_length. cbn [fst] in L. lia.
    + repeat inv H. rewrite !app_length. lia.
  - repeat inv H. apply split_len in E. apply slice_to_len in E0. apply sub_in_place_len in E1. rewrite app_length. lia.
Qed.

Lemma add_signed_word_len ws k w' o : add_signed_word_in_place ws k = Ok (w', o) -> length w' = length ws.
Proof.
  unfold add_signed_word_in_place. destruct (_ || _); intros H; [now inv H|]. destruct (signed_to_sign_magnitude k) as [[|] u]; repeat inv H.
  - now apply add_word_len in E.
  - now apply sub_word_len in E.
Qed.

Lemma add_signed_same_len ws s r w' o : add_signed_same_len_in_place ws s r = Ok (w', o) -> length w' = length ws.
Proof.
  unfold add_signed_same_len_in_place. intros H. inv H. destruct s; repeat inv H; [now apply add_same_len in E|now apply sub_same_len in E].
Qed.

Lemma add_signed_len ws s r w' o : add_signed_in_place ws s r = Ok (w', o) -> length w' = length ws.
Proof.
  unfold add_signed_in_place. intros H. inv H. destruct s; repeat inv H; [now apply add_in_place_len in E|now apply sub_in_place_len in E].
Qed.

Lemma mul_word_len ws r : forall k w' c, mul_word_in_place_with_carry ws r k = Ok (w', c) -> length w' = length ws.
Proof.
  induction ws as [|w ws IH]; intros k w' c; cbn [mul_word_in_place_with_carry]; intros H; [now inv H|].
  inv H. inv H. destruct (split_double_word _). repeat inv H. apply IH in E1. cbn. lia.
Qed.

Lemma add_mul_loop_len ws m : forall r k w' c, add_mul_word_loop ws m r k = Ok (w', c) -> length w' = length ws.
Proof.
  induction ws as [|w ws IH]; intros [|x r] k w' c; cbn [add_mul_word_loop]; intros H; try now inv H.
  inv H. inv H. inv H. destruct (split_double_word _). repeat inv H. apply IH in E2. cbn. lia.
Qed.

Lemma sub_mul_loop_len ws m : forall r k w' c, sub_mul_word_loop ws m r k = Ok (w', c) -> length w' = length ws.
Proof.
  induction ws as [|w ws IH]; intros [|x r] k w' c; cbn [sub_mul_word_loop]; intros H; try now inv H.
  inv H. inv H. inv H. inv H. inv H. destruct (split_double_word _). repeat inv H. apply IH in E4. cbn. lia.
Qed.

Lemma add_mul_same_len ws m r w' c : add_mul_word_same_len_in_place ws m r = Ok (w', c) -> length w' = length ws.
Proof. unfold add_mul_word_same_len_in_place. intros H. inv H. now apply add_mul_loop_len in H. Qed.

Lemma sub_mul_same_len ws m r w' c : sub_mul_word_same_len_in_place ws m r = Ok (w', c) -> length w' = length ws.
Proof. unfold sub_mul_word_same_len_in_place. intros H. repeat inv H. now apply sub_mul_loop_len in E. Qed.

Lemma window_len {R} i j c (f : list Z -> res (list Z * R)) c' r : on_window i j c f = Ok (c', r) ->
  (forall w w' r, f w = Ok (w', r) -> length w' = length w) -> length c' = length c.
Proof.
  unfold on_window. destruct ((i <=? j)%nat && (j <=? length c)%nat) eqn:G; [|discriminate]. intros H F.
  apply andb_prop in G. destruct G as [G1 G2]. apply Nat.leb_le in G1, G2. repeat inv H. apply F in E.
  rewrite firstn_length, skipn_length in E. rewrite !app_length, firstn_length, skipn_length. lia.
Qed.

Lemma add_mul_word_len ws m r w' c : add_mul_word_in_place ws m r = Ok (w', c) -> length w' = length ws.
Proof.
  unfold add_mul_word_in_place. cbv zeta. intros H. inv H. inv H. apply window_len in E; [|intros ? ? ? X; now apply add_mul_same_len in X].
  destruct (_ <? _)%nat; repeat inv H; [|exact E]. apply window_len in E0; [|intros ? ? ? X; now apply add_word_len in X]. lia.
Qed.

End Bounds.
