(** Greatest common divisors take quadratic time (Model/CostGcd.v). *)
From Coq Require Import Lia.
From Verif Require Import Model.Base Model.Words Model.Add Model.Shift Model.Memory Model.Mul Model.Buffer Model.UBig Model.IBig
  Model.Convert Model.AddOps Model.MulOps Model.ShiftOps Model.Bits Model.DivOps Model.PrimOps Model.Gcd Model.Cost
  Model.CostDiv Model.CostOps Model.CostFmt Model.CostGcd Spec.Val Spec.Num.
From Verif Require Proofs.FmtProofs.
From Verif Require Import Proofs.Basics Proofs.BufferProofs Proofs.Bounds Proofs.AddOpsProofs Proofs.ShiftOpsProofs Proofs.BitCountProofs Proofs.DivOpsProofs Proofs.GcdProofs
  Proofs.CostProofs Proofs.CostBounds Proofs.CostTheorems Proofs.CostRates Proofs.CostDivProofs
  Proofs.CostOpsProofs Proofs.CostOpsBounds Proofs.CostDivOps Proofs.CostFmtSteps Proofs.CostOperators Proofs.CostGcdProofs.

(** At most [N] steps, less what the result has in store. *)
Definition spends {T} (m : counted T) (N : Z) (pot : T -> Z) (P : T -> Prop) : Prop :=
  forall x, snd m = Ok x -> fst m + pot x <= N /\ P x.

Lemma spends_bind {S T} (m : counted S) (k : S -> counted T) x N pot Q P :
  costs m x Q -> (forall v, Q v -> spends (k v) (N - x) pot P) -> spends (cbind m k) N pot P.
Proof.
  unfold costs, spends. rewrite cbind_eq. intros M K y. destruct (snd m) as [v|p] eqn:E; cbn [fst snd]; [|discriminate].
  intros EY. destruct (M v eq_refl) as [M1 M2]. destruct (K v M2 y EY) as [K1 K2]. split; [lia|auto].
Qed.

Lemma costs_bind_spends {S T} (m : counted S) (k : S -> counted T) x N pot Q P :
  spends m x pot Q -> (forall v, Q v -> costs (k v) (N - x + pot v) P) -> costs (cbind m k) N P.
Proof.
  unfold costs, spends. rewrite cbind_eq. intros M K y. destruct (snd m) as [v|p] eqn:E; cbn [fst snd]; [|discriminate].
  intros EY. destruct (M v eq_refl) as [M1 M2]. destruct (K v M2 y EY) as [K1 K2]. split; [lia|auto].
Qed.

Lemma spends_free {T} (x : T) N (pot : T -> Z) (P : T -> Prop) : pot x <= N -> P x -> spends (free (Ok x)) N pot P.
Proof. intros L H y E. cbn in E. injection E as <-. cbn. auto. Qed.

(** What is known about the result of the counted operation. *)
Lemma costs_known {T} (m : counted T) r N P (Q : T -> Prop) : snd m = r -> costs m N P -> (forall x, r = Ok x -> Q x) -> costs m N Q.
Proof. intros E C K x X. destruct (C x X) as [L _]. split; [exact L|]. apply K. congruence. Qed.

Section Steps.
Context {A : Arch} {AOK : ArchOk A}.

(** *** The linear operations *)

Lemma below_linear W k d : 1 <= d -> 0 <= k -> below W k d -> W <= k * d.
Proof.
  intros D K [W0 H]. apply (Z.pow_le_mono_l_iff W (k * d) 100); [lia| |lia|].
  - apply Z.mul_nonneg_nonneg; lia.
  - rewrite Z.pow_mul_l. eapply Z.le_trans; [exact H|]. apply Z.mul_le_mono_nonneg_l; [apply Z.pow_nonneg; exact K|]. apply Z.pow_le_mono_r; lia.
Qed.

Lemma add_vr_costs a b n : ulen a <= n -> ulen b <= n -> 1 <= n -> costs (c_ubig_add_vr a b) (8 * n + 10) (lens_below (n + 1)).
Proof.
  intros La Lb N1. unfold c_ubig_add_vr, c_buffer_clone. destruct a as [x|x], b as [y|y]; cbn [ulen] in *.
  - unfold c_add_word. eapply costs_weaken; [apply costs_call|lia|]. intros u E. apply CostOpsBounds.add_word_len in E. unfold lens_below in *. lia.
  - apply costs_bind_call. intros z E. apply buffer_clone_words in E. assert (M : blen z = blen y) by (unfold blen; now rewrite E).
    eapply costs_weaken; [apply (add_large_word_costs z x n); lia|unfold blen, len in *; lia|auto].
  - eapply costs_weaken; [apply (add_large_word_costs x y n); lia|lia|auto].
  - eapply costs_weaken; [apply (add_large_costs x (words y) n); unfold blen in *; lia|lia|auto].
Qed.

Lemma add_rr_costs a b n : ulen a <= n -> ulen b <= n -> 1 <= n -> costs (c_ubig_add_rr a b) (8 * n + 10) (lens_below (n + 1)).
Proof.
  intros La Lb N1. unfold c_ubig_add_rr, c_buffer_clone. destruct a as [x|x], b as [y|y]; cbn [ulen] in *.
  - unfold c_add_word. eapply costs_weaken; [apply costs_call|lia|]. intros u E. apply CostOpsBounds.add_word_len in E. unfold lens_below in *. lia.
  - apply costs_bind_call. intros z E. apply buffer_clone_words in E. assert (M : blen z = blen y) by (unfold blen; now rewrite E).
    eapply costs_weaken; [apply (add_large_word_costs z x n); lia|unfold blen, len in *; lia|auto].
  - apply costs_bind_call. intros z E. apply buffer_clone_words in E. assert (M : blen z = blen x) by (unfold blen; now rewrite E).
    eapply costs_weaken; [apply (add_large_word_costs z y n); lia|unfold blen, len in *; lia|auto].
  - destruct (length (words y) <=? length (words x))%nat; apply costs_bind_call; intros z E; apply buffer_clone_words in E.
    + assert (M : blen z = blen x) by (unfold blen; now rewrite E).
      eapply costs_weaken; [apply (add_large_costs z (words y) n); unfold blen in *; lia|unfold blen, len in *; lia|auto].
    + assert (M : blen z = blen y) by (unfold blen; now rewrite E).
      eapply costs_weaken; [apply (add_large_costs z (words x) n); unfold blen in *; lia|unfold blen, len in *; lia|auto].
Qed.

Lemma shr_r_costs u k : 1 <= ulen u -> costs (c_ubig_shr_r u k) (4 * ulen u + 4) (fun x => 1 <= ulen x <= Z.max 2 (ulen u)).
Proof.
  intros L1. destruct u as [w|b]; cbn [c_ubig_shr_r ulen] in *.
  - eapply costs_weaken; [apply costs_call|lia|]. intros x E. injection E as <-. cbn. lia.
  - unfold c_shr_large_ref. cbv zeta. set (ws := skipn _ _). assert (LW : (length ws <= length (words b))%nat) by (unfold ws; rewrite skipn_length; lia).
    clearbody ws. destruct ws as [|x [|y [|z l]]].
    + apply costs_ok; [lia|cbn; lia].
    + apply costs_ok; [lia|cbn; lia].
    + eapply costs_weaken; [apply costs_call|lia|]. intros u E. apply from_dword_len in E. unfold lens_below in E. lia.
    + set (ws := x :: y :: z :: l) in *. apply costs_bind_call. intros b0 E0. apply allocate_words in E0. apply costs_bind_call. intros b1 E1. apply extend_words in E1.
      assert (L : length (words b1) = length ws) by (rewrite E1, E0; reflexivity).
      eapply costs_bind_words; [apply (call_keeps (words b1)); intros w' r E; now apply shr_len in E|]. intros b2 c L2. cbv beta iota.
      assert (LB : blen b2 = len ws) by (unfold blen, len; lia).
      eapply costs_weaken; [apply (from_buffer_costs b2 (2 * len ws + 1)); lia|unfold blen, len in *; lia|unfold blen, len in *; cbv beta; intros; lia].
Qed.

Lemma shl_word_costs w k : 0 <= k -> costs (c_shl_word w k) (3 * (k / wbits) + 9) (fun x => 1 <= ulen x <= k / wbits + 2).
Proof.
  intros K. assert (W0 : 0 < wbits) by (destruct AOK as [[->|[->| ->]] _]; lia). pose proof (Z.div_pos k wbits K W0) as Q.
  unfold c_shl_word. apply costs_bind_free. intros _ _. destruct (k <=? wbits).
  - eapply costs_weaken; [apply costs_call|lia|]. intros x X. apply from_dword_len in X. unfold lens_below in X. lia.
  - unfold c_shl_word_slow. cbv zeta. destruct (split_double_word _) as [lo hi]. apply costs_bind_free. intros n _.
    apply costs_bind_call. intros b0 E0. apply allocate_words in E0. apply costs_bind_call. intros b1 E1.
    unfold push_zeros in E1. apply check_ok in E1. destruct E1 as [_ E1]. injection E1 as <-.
    apply costs_bind_call. intros b2 E2. apply push_words in E2. apply costs_bind_call. intros b3 E3. apply push_words in E3.
    assert (L3 : blen b3 = k / wbits + 2).
    { unfold blen, len. rewrite E3, E2. cbn [words]. rewrite E0, !app_length, repeat_length. cbn [length]. lia. }
    eapply costs_weaken; [apply (from_buffer_costs b3 (2 * (k / wbits + 2) + 1)); lia|lia|cbv beta; intros; lia].
Qed.

Lemma shl_ref_large_costs ws k : 0 <= k -> costs (c_shl_ref_large ws k) (4 * len ws + 3 * (k / wbits) + 8) (fun x => 1 <= ulen x <= len ws + k / wbits + 1).
Proof.
  intros K. assert (W0 : 0 < wbits) by (destruct AOK as [[->|[->| ->]] _]; lia). pose proof (Z.div_pos k wbits K W0) as Q.
  unfold c_shl_ref_large. cbv zeta. apply costs_bind_free. intros n _.
  apply costs_bind_call. intros b0 E0. apply allocate_words in E0. apply costs_bind_call. intros b1 E1.
  unfold push_zeros in E1. apply check_ok in E1. destruct E1 as [_ E1]. injection E1 as <-.
  apply costs_bind_call. intros b2 E2. apply extend_words in E2. apply costs_bind_call. intros [b3 c] E3. cbv beta iota.
  apply on_buffer_len in E3; [|intros w w' x X; now apply shl_len in X].
  apply costs_bind_call. intros b4 E4. apply push_words in E4.
  assert (L4 : blen b4 = len ws + k / wbits + 1).
  { unfold blen, len. rewrite E4, app_length, E3, E2. cbn [words]. rewrite E0, !app_length, repeat_length. cbn [length]. lia. }
  eapply costs_weaken; [apply (from_buffer_costs b4 (2 * (len ws + k / wbits + 1) + 1)); lia|unfold len in *; lia|unfold len in *; cbv beta; intros; lia].
Qed.

Lemma shl_costs u k : 1 <= ulen u -> 0 <= k ->
  costs (c_ubig_shl_v u k) (5 * ulen u + 3 * (k / wbits) + 9) (fun x => 1 <= ulen x <= ulen u + k / wbits + 1) /\
  costs (c_ubig_shl_r u k) (5 * ulen u + 3 * (k / wbits) + 9) (fun x => 1 <= ulen x <= ulen u + k / wbits + 1).
Proof.
  intros L1 K. assert (W0 : 0 < wbits) by (destruct AOK as [[->|[->| ->]] _]; lia). pose proof (Z.div_pos k wbits K W0) as Q.
  destruct u as [w|b]; cbn [c_ubig_shl_v c_ubig_shl_r ulen] in *.
  - assert (X : costs (if w =? 0 then free (Ok (from_word 0)) else c_shl_word w k) (5 * 1 + 3 * (k / wbits) + 9) (fun x => 1 <= ulen x <= 1 + k / wbits + 1)).
    { destruct (w =? 0); [apply costs_ok; [lia|cbn [ulen from_word]; lia]|]. eapply costs_weaken; [apply shl_word_costs; exact K|lia|cbv beta; intros; lia]. }
    split; exact X.
  - assert (X : costs (c_shl_ref_large (words b) k) (5 * blen b + 3 * (k / wbits) + 9) (fun x => 1 <= ulen x <= blen b + k / wbits + 1)).
    { eapply costs_weaken; [apply shl_ref_large_costs; exact K|unfold blen in *; lia|unfold blen; cbv beta; intros; lia]. }
    split; [|exact X]. unfold c_shl_large. cbv zeta. apply costs_bind_free. intros n _. destruct (cap b <? n); [exact X|]. clear X.
    eapply costs_bind_words; [apply (call_keeps (words b)); intros w' r X; now apply shl_len in X|]. intros b1 c E1. cbv beta iota.
    apply costs_bind_call. intros b2 E2. apply push_words in E2. assert (L2 : blen b2 = blen b + 1) by (unfold blen, len; rewrite E2, app_length; cbn [length]; lia).
    apply costs_bind_call. intros b3 E3. unfold push_zeros_front in E3. apply check_ok in E3. destruct E3 as [_ E3]. injection E3 as <-.
    set (b3 := mkBuffer _ _). assert (L3 : blen b3 = blen b + k / wbits + 1).
    { unfold blen, len in *. unfold b3. cbn [words]. rewrite app_length, repeat_length. lia. }
    eapply costs_weaken; [apply (from_buffer_costs b3 (2 * (blen b + k / wbits + 1) + 1)); lia|unfold blen, len in *; lia|unfold blen, len in *; cbv beta; intros; lia].
Qed.

Lemma clone_costs u n : ulen u <= n -> costs (c_ubig_clone u) (n + 1) (fun x => ulen x = ulen u).
Proof.
  intros L. unfold c_ubig_clone. pose proof (as_words_ulen u). eapply costs_weaken; [apply costs_call|lia|]. intros x E.
  destruct u as [w|b]; cbn [ubig_clone] in E; [now injection E as <-|]. apply bind_inv in E. destruct E as (c & E & X). injection X as <-.
  apply buffer_clone_words in E. cbn [ulen]. unfold blen. now rewrite E.
Qed.

Lemma tz_costs u n : ulen u <= n -> costs (c_ubig_trailing_zeros u) (n + 1) (fun x => ubig_trailing_zeros u = Ok x).
Proof. intros L. unfold c_ubig_trailing_zeros. pose proof (as_words_ulen u). eapply costs_weaken; [apply costs_call|lia|auto]. Qed.

Lemma lt_costs a b n : ulen a <= n \/ ulen b <= n -> costs (c_ubig_lt a b) (n + 1) (fun x => ubig_lt a b = Ok x) /\ costs (c_ubig_le a b) (n + 1) (fun x => ubig_le a b = Ok x).
Proof.
  intros L. pose proof (as_words_ulen a). pose proof (as_words_ulen b).
  split; [unfold c_ubig_lt|unfold c_ubig_le]; (eapply costs_weaken; [apply costs_call|lia|auto]).
Qed.

(** *** The binary algorithm *)

Lemma gcd_loop_costs L : 1 <= L -> forall fuel a b, 1 <= ulen a <= L -> 1 <= ulen b <= L ->
  costs (c_gcd_loop fuel a b) (Z.of_nat fuel * (10 * L + 8)) (fun x => 1 <= ulen x <= L).
Proof.
  intros L1. induction fuel as [|fuel IH]; intros a b La Lb; cbn [c_gcd_loop]; [apply costs_panic|].
  rewrite Nat2Z.inj_succ, Z.mul_succ_l. assert (F0 : 0 <= Z.of_nat fuel * (10 * L + 8)) by (apply Z.mul_nonneg_nonneg; lia).
  set (N := Z.of_nat fuel * (10 * L + 8)) in *. clearbody N.
  eapply costs_bind; [apply (tz_costs a L); lia|]. intros [k|] _; [|apply costs_ok; lia].
  eapply costs_bind; [eapply costs_weaken; [apply (shr_v_costs a k); lia| |intros x X; exact X]; instantiate (1 := 4 * L + 3); lia|]. intros a1 La1. cbv beta in La1.
  eapply costs_bind; [apply (lt_costs a1 b L); lia|]. intros lt _.
  destruct lt.
  - eapply costs_bind; [eapply costs_weaken; [apply (sub_costs b a1); lia| |intros x X; exact X]; instantiate (1 := 4 * L + 3); lia|]. intros a2 La2. cbv beta in La2.
    eapply costs_weaken; [apply IH; lia|lia|auto].
  - eapply costs_bind; [eapply costs_weaken; [apply (sub_costs a1 b); lia| |intros x X; exact X]; instantiate (1 := 4 * L + 3); lia|]. intros a2 La2. cbv beta in La2.
    eapply costs_weaken; [apply IH; lia|lia|auto].
Qed.

Lemma rem_vr_costs d W a b : 0 <= W -> divides d W -> ulen b <= d -> 1 <= ulen a -> costs (c_ubig_rem_vr a b) ((W + 20) * (ulen a + 1)) (fun _ => True).
Proof.
  intros W0 D Lb La. unfold c_ubig_rem_vr, c_buffer_clone. destruct a as [x|x], b as [y|y]; cbn [ulen] in *.
  - eapply costs_weaken; [apply costs_call|lia|auto].
  - apply costs_ok; [lia|exact I].
  - eapply costs_weaken; [apply costs_call|unfold blen, len in *; nia|auto].
  - destruct (Z.leb_spec (blen y) (blen x)) as [G|G].
    + apply costs_bind_call. intros z E. apply buffer_clone_words in E. assert (M : blen z = blen y) by (unfold blen; now rewrite E).
      destruct (rem_div_large_costs d W x z) as [_ C]; [exact W0|exact D|lia|lia|lia|].
      eapply costs_weaken; [exact C| |auto]. unfold blen, len in *. nia.
    + eapply costs_weaken; [apply (from_buffer_costs x (2 * blen x + 1)); lia|nia|auto].
Qed.

Lemma ulen_val x y : ubig_ok x -> ubig_ok y -> uval x <= uval y -> 1 <= ulen x <= ulen y.
Proof.
  intros Ox Oy V. pose proof (uval_nonneg x Ox) as V0. pose proof B_ge. destruct (Z.eq_dec (uval y) 0) as [E|E].
  - assert (Ly : 1 <= ulen y) by (destruct y as [w|b]; cbn [ulen]; [lia|]; pose proof (Large_ge _ Oy); cbn [uval] in *; lia).
    apply ulen_le; [exact Ox| |exact Ly]. assert (0 < B ^ ulen y) by (apply Z.pow_pos_nonneg; lia). lia.
  - destruct (FmtProofs.ulen_facts y Oy ltac:(lia)) as [L1 L2]. apply ulen_le; [exact Ox|lia|lia].
Qed.

Lemma ulen_pos x : ubig_ok x -> 1 <= ulen x.
Proof. intros O. apply (ulen_val x x O O). lia. Qed.

(** *** What the operations return *)

Lemma len_small x L : 1 <= L -> ubig_ok x -> uval x < B ^ L -> 1 <= ulen x <= L.
Proof. intros L1 O V. apply ulen_le; assumption. Qed.

Lemma shr_known u k L : ubig_ok u -> 0 <= k -> 1 <= ulen u <= L ->
  costs (c_ubig_shr_v u k) (4 * L + 3) (fun x => ubig_ok x /\ uval x = uval u / 2 ^ k).
Proof.
  intros O K Lu. eapply costs_known; [apply shr_v_erase|eapply costs_weaken; [apply (shr_v_costs u k); lia|lia|intros x X; exact X]|].
  intros x E. destruct (shr_exists u k O K) as (y & F & Oy & V). unfold ubig_shr_assign in F. rewrite F in E. injection E as <-. auto.
Qed.

Lemma add_known a b L : ubig_ok a -> ubig_ok b -> 1 <= ulen a <= L -> 1 <= ulen b <= L ->
  costs (c_ubig_add_vr a b) (8 * L + 10) (fun x => ubig_ok x /\ uval x = uval a + uval b).
Proof.
  intros Oa Ob La Lb. eapply costs_known; [apply add_vr_erase|apply (add_vr_costs a b L); lia|].
  intros x E. destruct (add_or_large _ a b Oa Ob (Z.le_refl _)) as [(y & F & P)|[F _]]; unfold ubig_add_assign_r in F; rewrite F in E; [|discriminate].
  injection E as <-. exact P.
Qed.

Lemma sub_known a b L : ubig_ok a -> ubig_ok b -> uval b <= uval a -> 1 <= ulen a <= L ->
  costs (c_ubig_sub_vr a b) (4 * L + 3) (fun x => ubig_ok x /\ uval x = uval a - uval b).
Proof.
  intros Oa Ob V La. eapply costs_known; [apply sub_vr_erase|eapply costs_weaken; [apply (sub_costs a b); lia|lia|intros x X; exact X]|].
  intros x E. destruct (sub_exists a b Oa Ob V) as (y & F & P). unfold ubig_sub_assign_r in F. rewrite F in E. injection E as <-. exact P.
Qed.

Lemma lt_known a b L : ubig_ok a -> ubig_ok b -> ulen a <= L \/ ulen b <= L ->
  costs (c_ubig_lt a b) (L + 1) (fun x => x = (uval a <? uval b)) /\ costs (c_ubig_le a b) (L + 1) (fun x => x = (uval a <=? uval b)).
Proof.
  intros Oa Ob LL. destruct (lt_costs a b L LL) as [C1 C2]. split; (eapply costs_weaken; [first [exact C1|exact C2]|lia|]); cbv beta; intros x E.
  - rewrite ubig_lt_spec in E by auto. congruence.
  - rewrite ubig_le_spec in E by auto. congruence.
Qed.

Lemma odd_known a : ubig_ok a -> costs (c_is_odd a) 1 (fun x => x = Z.odd (uval a)).
Proof. intros O. unfold c_is_odd. eapply costs_weaken; [apply costs_call|lia|]. cbv beta. intros x E. rewrite is_odd_spec in E by auto. congruence. Qed.

(** *** The extended algorithm *)

Lemma halve_costs u v L : 1 <= L -> ubig_ok u -> ubig_ok v -> uval u < B ^ L -> uval v < B ^ L ->
  Z.odd (uval u) = true \/ Z.odd (uval v) = true ->
  forall fuel t, tri_ok (uval u) (uval v) t -> 0 < tri_a t ->
  spends (c_halve_loop fuel u v t) ((28 * L + 40) * Z.log2 (tri_a t) + 1) (fun t' => (28 * L + 40) * Z.log2 (tri_a t')) (fun t' =>
    tri_ok (uval u) (uval v) t' /\ Z.odd (tri_a t') = true /\ exists k, 0 <= k /\ tri_a t = tri_a t' * 2 ^ k).
Proof.
  intros L1 Hu Hv Ru Rv O. induction fuel as [|fuel IH]; intros [[a x] y] (Ha & Hx & Hy & I) Pa; unfold tri_a in *; cbn [fst] in *; cbn [c_halve_loop].
  { intros z E. discriminate. }
  pose proof (len_small u L L1 Hu Ru) as Lu. pose proof (len_small v L L1 Hv Rv) as Lv.
  assert (La : 1 <= ulen a <= L) by (apply len_small; auto; destruct I as (_ & _ & _ & Ia); lia).
  assert (Lx : 1 <= ulen x <= L) by (apply len_small; auto; destruct I as (Ia & _); lia).
  assert (Ly : 1 <= ulen y <= L) by (apply len_small; auto; destruct I as (_ & Ia & _); lia).
  assert (M0 : 0 <= (28 * L + 40) * Z.log2 (uval a)) by (apply Z.mul_nonneg_nonneg; [lia|apply Z.log2_nonneg]).
  eapply spends_bind; [apply odd_known; exact Ha|]. intros o ->.
  destruct (Z.odd (uval a)) eqn:Oa.
  { apply spends_free; [cbn [fst]; lia|]. cbn [fst]. split; [cbn; auto|]. split; [auto|]. exists 0. rewrite Z.mul_1_r. split; [lia|auto]. }
  eapply spends_bind; [apply odd_known; exact Hx|]. intros ox ->.
  apply (spends_bind _ _ 1 _ _ (fun z => z = Z.odd (uval x) || Z.odd (uval y))).
  { destruct (Z.odd (uval x)); [apply costs_ok; [lia|reflexivity]|]. apply odd_known. exact Hy. }
  intros oy ->. pose proof (binv_halve _ _ _ _ _ O I Oa) as H.
  assert (Pw : B ^ (L + 1) = B * B ^ L) by (rewrite Z.pow_add_r, Z.pow_1_r by lia; lia). pose proof B_ge as BG. assert (PB : 0 < B ^ L) by (apply Z.pow_pos_nonneg; lia).
  apply (spends_bind _ _ (16 * L + 20) _ _ (fun p => ubig_ok (fst p) /\ ubig_ok (snd p) /\ 1 <= ulen (fst p) <= L + 1 /\ 1 <= ulen (snd p) <= L + 1 /\
     binv (uval u) (uval v) (uval a / 2) (uval (fst p) / 2) (uval (snd p) / 2))).
  { destruct (Z.odd (uval x) || Z.odd (uval y)).
    - destruct H as (_ & _ & H). eapply costs_bind; [apply (add_known x v L); auto|]. intros x' [Hx' Vx].
      eapply costs_bind; [apply (add_known y u L); auto|]. intros y' [Hy' Vy]. apply costs_ok; [lia|]. cbn [fst snd]. rewrite Vx, Vy.
      destruct I as (Ix & Iy & _). do 2 (split; [auto|]). split; [|split]; [apply len_small; [lia|auto|rewrite Pw; nia]..|exact H].
    - apply costs_ok; [lia|]. cbn [fst snd]. do 2 (split; [auto|]). split; [lia|]. split; [lia|exact H]. }
  intros [x' y'] (Hx' & Hy' & Lx' & Ly' & I'). cbn [fst snd] in *. cbv beta iota.
  eapply spends_bind; [apply (shr_known a 1 L); [auto|lia|lia]|]. intros a1 [Ha1 Va]. change (2 ^ 1) with 2 in Va.
  eapply spends_bind; [apply (shr_known x' 1 (L + 1)); [auto|lia|lia]|]. intros x1 [Hx1 Vx1]. change (2 ^ 1) with 2 in Vx1.
  eapply spends_bind; [apply (shr_known y' 1 (L + 1)); [auto|lia|lia]|]. intros y1 [Hy1 Vy1]. change (2 ^ 1) with 2 in Vy1.
  assert (Da : uval a = 2 * uval a1).
  { rewrite Va. pose proof (Zdiv2_odd_eqn (uval a)) as D. rewrite Oa, Z.div2_div in D. lia. }
  assert (P1 : 0 < uval a1) by lia.
  assert (LG : Z.log2 (uval a) = Z.log2 (uval a1) + 1) by (rewrite Da, Z.log2_double by lia; lia).
  intros z Ez. destruct (IH (a1, x1, y1)) with (x := z) as (C & T & Oz & k & Hk & Ek); [|exact P1|exact Ez|].
  - cbn [tri_ok]. rewrite Va, Vx1, Vy1. auto.
  - cbn [fst] in *. split; [rewrite LG; lia|]. split; [exact T|]. split; [exact Oz|]. exists (k + 1). split; [lia|]. rewrite Da, Ek, Z.pow_add_r by lia. lia.
Qed.

Lemma egcd_costs u v L : 1 <= L -> ubig_ok u -> ubig_ok v -> uval u < B ^ L -> uval v < B ^ L -> 0 < uval u -> 0 < uval v ->
  Z.odd (uval u) = true \/ Z.odd (uval v) = true ->
  forall fuel s t, tri_ok (uval u) (uval v) s -> tri_ok (uval u) (uval v) t -> Z.odd (tri_a t) = true ->
  costs (c_egcd_loop fuel u v s t)
    ((58 * L + 80) * (Z.log2 (tri_a s) + Z.log2 (tri_a t)) + (30 * L + 40) * (if Z.odd (tri_a s) then 1 else 0))
    (fun t' => tri_ok (uval u) (uval v) t' /\ tri_a t' = Z.gcd (tri_a s) (tri_a t)).
Proof.
  intros L1 Hu Hv Ru Rv Pu Pv O. pose proof (len_small u L L1 Hu Ru) as Lu. pose proof (len_small v L L1 Hv Rv) as Lv.
  induction fuel as [|fuel IH]; intros [[a x] y] [[b p] q] S T Ob; cbn [c_egcd_loop]; [apply costs_panic|].
  pose proof S as (Ha & Hx & Hy & I); pose proof T as (Hb & Hp & Hq & J).
  unfold tri_a in *; cbn [fst] in *.
  pose proof (uval_nonneg a Ha) as Pa; pose proof (uval_nonneg b Hb) as Pb.
  pose proof (Z.log2_nonneg (uval a)) as La0. pose proof (Z.log2_nonneg (uval b)) as Lb0.
  destruct (ubig_eqb a (from_word 0)) eqn:C.
  { apply ubig_is_zero in C; [|auto]. apply costs_ok; [|split; [exact T|cbn [fst]; rewrite C, Z.gcd_0_l_nonneg; auto]].
    assert (0 <= (58 * L + 80) * (Z.log2 (uval a) + Z.log2 (uval b))) by (apply Z.mul_nonneg_nonneg; lia). destruct (Z.odd (uval a)); lia. }
  assert (Na : 0 < uval a). { destruct (Z.eq_dec (uval a) 0) as [E|E]; [|lia]. apply (ubig_is_zero a Ha) in E. congruence. }
  eapply costs_bind_spends; [apply (halve_costs u v L L1 Hu Hv Ru Rv O _ (a, x, y) S); exact Na|].
  intros [[a1 x1] y1] (S1 & Oa1 & k & Hk & Ek). unfold tri_a in *. cbn [fst] in *. pose proof S1 as (Ha1 & Hx1 & Hy1 & I1).
  assert (P1 : 0 < uval a1).
  { pose proof (uval_nonneg a1 Ha1). destruct (Z.eq_dec (uval a1) 0) as [E|]; [rewrite E in Oa1; discriminate|lia]. }
  assert (LG : Z.log2 (uval a) = k + Z.log2 (uval a1)) by (rewrite Ek; apply Z.log2_mul_pow2; auto).
  assert (OK1 : (if Z.odd (uval a) then 1 else 0) + k >= 1).
  { destruct (Z.eq_dec k 0) as [->|]; [|destruct (Z.odd (uval a)); lia]. rewrite Z.mul_1_r in Ek. rewrite Ek, Oa1. lia. }
  assert (G : Z.gcd (uval a) (uval b) = Z.gcd (uval a1) (uval b)) by (rewrite Ek; apply gcd_odd_shift; auto).
  rewrite G.
  assert (lens : forall c cx cy, tri_ok (uval u) (uval v) (c, cx, cy) -> 1 <= ulen c <= L /\ 1 <= ulen cx <= L /\ 1 <= ulen cy <= L).
  { intros c cx cy (Hc & Hcx & Hcy & (Ix & Iy & _ & Ic)). split; [|split]; apply len_small; auto; lia. }
  destruct (lens _ _ _ S1) as (La1 & _). destruct (lens _ _ _ T) as (Lb & _).
  assert (main : forall c cx cy d dx dy, tri_ok (uval u) (uval v) (c, cx, cy) -> tri_ok (uval u) (uval v) (d, dx, dy) ->
    Z.odd (uval c) = true -> Z.odd (uval d) = true -> uval d <= uval c ->
    costs
      (a2 <+ c_ubig_sub_vr c d ;;
       lt <+ c_ubig_lt cx dx ;;
       '(ax, ay) <+
          (if (lt : bool)
           then ax <+ c_ubig_add_vr cx v ;; ay <+ c_ubig_add_vr cy u ;; free (Ok (ax, ay))
           else free (Ok (cx, cy))) ;;
        ax <+ c_ubig_sub_vr ax dx ;;
        ay <+ c_ubig_sub_vr ay dy ;;
        c_egcd_loop fuel u v (a2, ax, ay) (d, dx, dy))
      ((58 * L + 80) * (Z.log2 (uval c) + Z.log2 (uval d)) + 29 * L + 38)
      (fun t' => tri_ok (uval u) (uval v) t' /\ uval (fst (fst t')) = Z.gcd (uval c) (uval d))).
  { clear - A AOK Hu Hv Pu Pv Ru Rv Lu Lv IH lens L1. intros c cx cy d dx dy S T Oc Od VL.
    destruct (lens _ _ _ S) as (Lc & Lcx & Lcy). destruct (lens _ _ _ T) as (Ld & Ldx & Ldy). clear lens.
    pose proof S as (Hc & Hcx & Hcy & I); pose proof T as (Hd & Hdx & Hdy & J).
    eapply costs_bind; [apply (sub_known c d L); auto|]. intros e [He Ve].
    eapply costs_bind; [apply (lt_known cx dx L); auto; lia|]. intros lt ->.
    assert (Pd : 0 < uval d).
    { pose proof (uval_nonneg d Hd). destruct (Z.eq_dec (uval d) 0) as [E|]; [rewrite E in Od; discriminate|lia]. }
    pose proof (binv_sub _ _ _ _ _ _ _ _ Pu Pv I J (conj Pd VL)) as Q. cbv zeta in Q.
    assert (Pw : B ^ (L + 1) = B * B ^ L) by (rewrite Z.pow_add_r, Z.pow_1_r by lia; lia). pose proof B_ge as BG. assert (PB : 0 < B ^ L) by (apply Z.pow_pos_nonneg; lia).
    apply (costs_bind _ _ (16 * L + 20) _ (fun p => ubig_ok (fst p) /\ ubig_ok (snd p) /\ 1 <= ulen (fst p) <= L + 1 /\ 1 <= ulen (snd p) <= L + 1 /\
      uval dx <= uval (fst p) /\ uval dy <= uval (snd p) /\
      binv (uval u) (uval v) (uval c - uval d) (uval (fst p) - uval dx) (uval (snd p) - uval dy))).
    { destruct (uval cx <? uval dx); destruct Q as (Q1 & Q2 & Q3).
      - eapply costs_bind; [apply (add_known cx v L); auto|]. intros x' [Hx' Vx].
        eapply costs_bind; [apply (add_known cy u L); auto|]. intros y' [Hy' Vy]. apply costs_ok; [lia|]. cbn [fst snd]. rewrite Vx, Vy.
        destruct I as (Ix & Iy & _). do 2 (split; [auto|]). split; [|split]; [apply len_small; [lia|auto|rewrite Pw; nia]..|auto].
      - apply costs_ok; [lia|]. cbn [fst snd]. do 2 (split; [auto|]). split; [lia|]. split; [lia|auto]. }
    intros [x' y'] (Hx' & Hy' & Lx' & Ly' & L2 & L3 & I'). cbn [fst snd] in *. cbv beta iota.
    eapply costs_bind; [apply (sub_known x' dx (L + 1)); auto|]. intros x2 [Hx2 Vx2].
    eapply costs_bind; [apply (sub_known y' dy (L + 1)); auto|]. intros y2 [Hy2 Vy2].
    assert (Oe : Z.odd (uval e) = false) by (rewrite Ve; apply odd_diff; auto).
    eapply costs_weaken; [apply (IH (e, x2, y2) (d, dx, dy))| |].
    - cbn [tri_ok]. split; [auto|]. split; [auto|]. split; [auto|]. rewrite Ve, Vx2, Vy2. auto.
    - auto.
    - auto.
    - cbn [fst]. rewrite Oe. assert (LE : Z.log2 (uval e) <= Z.log2 (uval c)) by (apply Z.log2_le_mono; lia).
      assert (MM : (58 * L + 80) * (Z.log2 (uval e) + Z.log2 (uval d)) <= (58 * L + 80) * (Z.log2 (uval c) + Z.log2 (uval d))) by (apply Z.mul_le_mono_nonneg_l; lia).
      lia.
    - cbn [fst]. intros t [Tt Vt]. split; [exact Tt|]. rewrite Vt, Ve. rewrite Z.gcd_comm, Z.gcd_sub_diag_r. apply Z.gcd_comm. }
  assert (BND : (58 * L + 80) * (Z.log2 (uval a1) + Z.log2 (uval b)) + 29 * L + 38 + (L + 1) <=
    (58 * L + 80) * (Z.log2 (uval a) + Z.log2 (uval b)) + (30 * L + 40) * (if Z.odd (uval a) then 1 else 0) -
    ((28 * L + 40) * Z.log2 (uval a) + 1) + (28 * L + 40) * Z.log2 (uval a1)).
  { rewrite LG. assert (30 * L + 40 <= (30 * L + 40) * ((if Z.odd (uval a) then 1 else 0) + k)).
    { rewrite <- (Z.mul_1_r (30 * L + 40)) at 1. apply Z.mul_le_mono_nonneg_l; lia. }
    rewrite Z.mul_add_distr_l in H. set (la := Z.log2 (uval a1)) in *. set (lb := Z.log2 (uval b)) in *. clear - H L1. lia. }
  eapply costs_bind; [apply (lt_known a1 b L); auto; lia|]. intros lt ->.
  destruct (Z.ltb_spec (uval a1) (uval b)) as [C1|C1].
  - eapply costs_weaken; [apply (main b p q a1 x1 y1 T S1 Ob Oa1); lia|lia|]. cbv beta. intros t' [T1 V1]. split; [exact T1|]. cbn [fst]. rewrite V1. apply Z.gcd_comm.
  - eapply costs_weaken; [apply (main a1 x1 y1 b p q S1 T Oa1 Ob); lia|lia|]. auto.
Qed.

End Steps.
