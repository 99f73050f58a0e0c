(** How deeply the recursive functions nest. *)
From Verif Require Import Model.Base Model.Words Model.Memory Model.FastDivide Model.Buffer Model.UBig Model.IBig Model.Convert
  Model.Mul Model.Div Model.MulOps Model.DivOps Model.Gcd Model.Pow Model.Radix Model.Parse Model.Fmt
  Spec.Val Spec.Num Proofs.Basics Proofs.AddProofs Proofs.FastDivideProofs Proofs.MulWordProofs Proofs.MulProofs Proofs.MulFull
  Proofs.DivProofs Proofs.BufferProofs Proofs.ConvertProofs Proofs.MulOpsProofs Proofs.Bounds Proofs.GcdProofs Proofs.PowProofs
  Proofs.RadixProofs Proofs.FmtProofs.
From Coq Require Import Lia.

Section Depth.
Context {A : Arch} {AOK : ArchOk A}.

Lemma upd_post_unique ws w1 w2 delta k1 k2 : upd_post ws w1 delta k1 -> upd_post ws w2 delta k2 ->
  w1 = w2 /\ k1 = k2.
Proof.
  intros (L1 & W1 & V1) (L2 & W2 & V2).
  pose proof (val_bound _ W1) as B1. pose proof (val_bound _ W2) as B2. rewrite L1 in B1. rewrite L2 in B2.
  assert (k1 = k2) as ->.
  { rewrite <- V2 in V1. clear V2. destruct (Z.lt_trichotomy k1 k2) as [C|[C|C]]; [|auto|]; exfalso.
    - assert (Bn (length ws) * (k1 + 1) <= Bn (length ws) * k2) by (apply Z.mul_le_mono_nonneg_l; lia). lia.
    - assert (Bn (length ws) * (k2 + 1) <= Bn (length ws) * k1) by (apply Z.mul_le_mono_nonneg_l; lia). lia. }
  split; [|auto]. apply val_inj; auto; [congruence|lia].
Qed.

Lemma div_post_unique lhs rhs l1 l2 o1 o2 : div_post lhs rhs l1 o1 -> div_post lhs rhs l2 o2 ->
  l1 = l2 /\ o1 = o2.
Proof.
  intros (r1 & q1 & -> & Wr1 & Wq1 & Lr1 & Lq1 & V1 & T1) (r2 & q2 & -> & Wr2 & Wq2 & Lr2 & Lq2 & V2 & T2).
  pose proof (val_nonneg _ Wr1) as P1. pose proof (val_nonneg _ Wr2) as P2.
  destruct (Z.div_mod_unique (val rhs) (val q1 + Bn (length q1) * Z.b2z o1) (val q2 + Bn (length q2) * Z.b2z o2)
    (val r1) (val r2)) as [EQ ER]; [lia..|].
  assert (upd_post q1 q1 0 0) as _ by (unfold upd_post; repeat split; auto; lia).
  destruct (upd_post_unique q1 q1 q2 (Bn (length q1) * Z.b2z o1) (Z.b2z o1) (Z.b2z o2)) as [-> Eo].
  - unfold upd_post. repeat split; auto.
  - unfold upd_post. split; [congruence|]. split; [auto|]. replace (length q1) with (length q2) in * by congruence. lia.
  - rewrite (val_inj r1 r2) by (auto; congruence). split; [reflexivity|]. destruct o1, o2; cbn in Eo; auto; lia.
Qed.

(** * Multiplication *)
Lemma same_len_depth k depth c s a b mem : wf c -> wf a -> wf b -> length b = length a ->
  length c = (2 * length a)%nat -> mul_memory (length a) <= mem ->
  Z.of_nat (length a) <= 24 * 2 ^ Z.of_nat k -> (k + 1 <= depth)%nat ->
  exists c' carry, same_len_fuel depth c s a b mem = Ok (c', carry) /\
    add_signed_mul_same_len c s a b mem = Ok (c', carry).
Proof.
  intros Wc Wa Wb Lb Lc Hm Hn Hd.
  destruct (add_signed_mul_same_len_spec (length a) c s a b mem) as (c1 & k1 & E1 & P1); auto.
  assert (deep depth (length a)) as D.
  { destruct depth as [|d]; [lia|]. cbn [deep].
    assert (2 ^ Z.of_nat k <= 2 ^ Z.of_nat d) by (apply Z.pow_le_mono_r; lia). lia. }
  destruct (same_len_fuel_spec depth (length a) D c s a b mem) as (c2 & k2 & E2 & P2); auto.
  destruct (upd_post_unique _ _ _ _ _ _ P1 P2) as [<- <-]. exists c1, k1. auto.
Qed.

Lemma mul_depth k depth c s a b mem : wf c -> wf a -> wf b ->
  length c = (length a + length b)%nat -> mul_memory (Nat.min (length a) (length b)) <= mem ->
  Z.of_nat (Nat.min (length a) (length b)) <= 24 * 2 ^ Z.of_nat k -> (2 * k + 2 <= depth)%nat ->
  exists c' carry, add_signed_mul_fuel depth c s a b mem = Ok (c', carry) /\
    add_signed_mul c s a b mem = Ok (c', carry).
Proof.
  intros Wc Wa Wb Lc Hm Hn Hd.
  destruct (add_signed_mul_spec c s a b mem) as (c1 & k1 & E1 & P1); auto.
  destruct (add_signed_mul_fuel_spec depth (length a) (length b) mem) with (c := c) (s := s) (a := a) (b := b)
    as (c2 & k2 & E2 & P2); auto.
  { right. exists k. auto. }
  destruct (upd_post_unique _ _ _ _ _ _ P1 P2) as [<- <-]. exists c1, k1. auto.
Qed.

(** * Division *)
Lemma div_depth k depth lhs rest top f need mem : wf lhs -> wf (rest ++ [top]) ->
  B <= 2 * top -> fdn_new top = Ok f -> (1 <= length rest)%nat -> (length rest < length lhs)%nat ->
  div_memory (length lhs) (S (length rest)) = Ok need -> need <= mem ->
  Z.of_nat (S (length rest)) <= 32 * 2 ^ Z.of_nat k -> (2 * k + 3 <= depth)%nat ->
  exists lhs' o, div_rem_depth depth lhs (rest ++ [top]) f mem = Ok (lhs', o) /\
    div_rem_in_place lhs (rest ++ [top]) f mem = Ok (lhs', o).
Proof.
  intros Wl Wr Ht Ef L1 L2 Em Hm Hn Hd.
  assert (length (rest ++ [top]) = S (length rest)) as Lr by (rewrite app_length; cbn [length]; lia).
  assert (norm_div (rest ++ [top]) f) as N.
  { split; [auto|]. exists rest, top. split; [auto|]. apply wf_app in Wr as [_ Wt]. apply wf_cons in Wt as [Wt _].
    destruct (fdn_new_spec top Ht ltac:(lia)) as (f' & E & F). congruence. }
  rewrite <- Lr in Em.
  destruct (div_rem_in_place_spec lhs (rest ++ [top]) f need mem) as (l1 & o1 & E1 & P1); auto; [lia..|].
  destruct (div_rem_depth_spec depth lhs (rest ++ [top]) f need mem) as (l2 & o2 & E2 & P2); auto; [|lia..|].
  { intros _. exists k. rewrite Lr. auto. }
  destruct (div_post_unique _ _ _ _ _ _ P1 P2) as [<- <-]. exists l1, o1. auto.
Qed.

Lemma check_inv {T} (b : bool) (k : res T) x : (check b ;; k) = Ok x -> b = true /\ k = Ok x.
Proof. destruct b; cbn [bind]; [auto|discriminate]. Qed.

(** * Parsing: the powers that the recursion descends through *)
Lemma powers_loop_length cb n : 1 <= cb -> forall fuel ps ps', powers_loop fuel cb n ps = Ok ps' ->
  2 ^ (Z.of_nat (length ps) - 1) <= Z.max 1 (n - 1) -> 2 ^ (Z.of_nat (length ps') - 1) <= Z.max 1 (n - 1).
Proof.
  intros Hcb. induction fuel as [|fuel IH]; intros ps ps' E H; cbn [powers_loop] in E.
  - destruct (check_inv _ _ _ E) as [_ E1]. clear E.
    destruct (cb <=? _); [discriminate|]. injection E1 as <-. auto.
  - destruct (check_inv _ _ _ E) as [_ E1]. clear E.
    destruct (Z.leb_spec cb (Z.shiftr (n - 1) (Z.of_nat (length ps)))) as [C|C]; [|injection E1 as <-; auto].
    destruct ps as [|p ps]; [discriminate|].
    destruct (ubig_mul_rr p p) as [new|]; [|discriminate]. cbn [bind] in E1.
    apply (IH _ _ E1). rewrite Z.shiftr_div_pow2 in C by lia. cbn [length] in *.
    set (m := Z.of_nat (S (length ps))) in *. replace (Z.of_nat (S (S (length ps))) - 1) with m by lia.
    assert (0 < 2 ^ m) as Pm by (apply Z.pow_pos_nonneg; lia).
    pose proof (Z.mul_div_le (n - 1) _ Pm). 
    assert (2 ^ m * 1 <= 2 ^ m * ((n - 1) / 2 ^ m)) by (apply Z.mul_le_mono_nonneg_l; lia). lia.
Qed.

Lemma parse_depth fuel cb n p ps : 1 <= cb -> powers_loop fuel cb n [p] = Ok ps ->
  2 ^ (Z.of_nat (length ps) - 1) <= Z.max 1 (n - 1).
Proof.
  intros Hcb E. apply (powers_loop_length cb n Hcb _ _ _ E). cbn [length].
  change (2 ^ (Z.of_nat 1 - 1)) with 1. lia.
Qed.

(** * All numbers of a platform *)
Lemma max_len_depth : MAX_LEN <= 24 * 2 ^ (ubits - 8).
Proof.
  pose proof MAX_LEN_facts as ML. destruct wbits_cases as [W | [W | W]], ubits_cases as [U | [U | U]]; rewrite U in *; rewrite W in *; 
    cbn in ML |- *; lia.
Qed.

Lemma mul_depth_platform c s a b mem : wf c -> wf a -> wf b ->
  length c = (length a + length b)%nat -> mul_memory (Nat.min (length a) (length b)) <= mem ->
  Z.of_nat (length a) <= MAX_LEN ->
  exists c' carry, add_signed_mul_fuel (Z.to_nat (2 * ubits - 14)) c s a b mem = Ok (c', carry) /\
    add_signed_mul c s a b mem = Ok (c', carry).
Proof.
  intros Wc Wa Wb Lc Hm Hn. assert (16 <= ubits) as U by (destruct ubits_cases as [-> | [-> | ->]]; lia).
  apply (mul_depth (Z.to_nat (ubits - 8))); auto; [|lia].
  rewrite Z2Nat.id by lia. pose proof max_len_depth. lia.
Qed.

Lemma div_depth_platform lhs rest top f need mem : wf lhs -> wf (rest ++ [top]) ->
  B <= 2 * top -> fdn_new top = Ok f -> (1 <= length rest)%nat -> (length rest < length lhs)%nat ->
  div_memory (length lhs) (S (length rest)) = Ok need -> need <= mem ->
  Z.of_nat (S (length rest)) <= MAX_LEN ->
  exists lhs' o, div_rem_depth (Z.to_nat (2 * ubits - 13)) lhs (rest ++ [top]) f mem = Ok (lhs', o) /\
    div_rem_in_place lhs (rest ++ [top]) f mem = Ok (lhs', o).
Proof.
  intros Wl Wr Ht Ef L1 L2 Em Hm Hn. assert (16 <= ubits) as U by (destruct ubits_cases as [-> | [-> | ->]]; lia).
  apply (div_depth (Z.to_nat (ubits - 8)) _ lhs rest top f need); auto; [|lia].
  rewrite Z2Nat.id by lia. pose proof max_len_depth.
  pose proof (Z.pow_nonneg 2 (ubits - 8)). lia.
Qed.

(** * Formatting: the powers that the recursion descends through *)
Lemma npl_split_index : forall ps x chunks x' chunks' m, npl_split ps x chunks = Ok (x', chunks') ->
  (length ps <= m)%nat -> Forall (fun c => (fst c < m)%nat) chunks -> Forall (fun c => (fst c < m)%nat) chunks'.
Proof.
  induction ps as [|p ps IH]; intros x chunks x' chunks' m E Hm F; cbn [npl_split length] in *.
  - injection E as <- <-. auto.
  - destruct (ubig_le p x) as [ge|]; [|discriminate]. cbn [bind] in E. destruct ge.
    + destruct (ubig_div_rem_vr x p) as [[q r]|]; [|discriminate]. cbn [bind] in E.
      apply (IH _ _ _ _ m E); [lia|]. apply Forall_app. split; [auto|]. constructor; [cbn [fst]; lia|constructor].
    + apply (IH _ _ _ _ m E); [lia|auto].
Qed.

Lemma npl_new_depth x radix l : 2 <= radix <= 36 -> is_pow2 radix = false -> ubig_ok x -> 1 <= uval x ->
  npl_new x radix = Ok l ->
  2 ^ Z.of_nat (length (npl_powers l)) <= 2 * Z.of_nat (length (as_words x)) /\
  Forall (fun c => (fst c < length (npl_powers l))%nat) (npl_chunks l).
Proof.
  intros Hr Np Hx Hv E. destruct (radix_info_np radix Hr Np) as (ri & Eri & NI).
  destruct (dpw_facts radix ri Hr Eri NI) as (D1 & D2 & D3 & D4).
  unfold npl_new in E. destruct (check_inv _ _ _ E) as [_ E1]. clear E. rewrite Eri in E1. cbn [bind] in E1.
  assert (Or : ubig_ok (from_word (range_per_word ri))) by (cbn [ubig_ok from_word]; lia).
  assert (U16 : 0 <= Z.of_nat CHUNK_LEN < 2 ^ ubits).
  { split; [lia|]. apply Z.lt_le_trans with (2 ^ 16); [reflexivity|].
    apply Z.pow_le_mono_r; [lia|]. destruct ubits_cases as [-> | [-> | ->]]; lia. }
  destruct (yields_returns _ _ (ubig_pow_spec (from_word (range_per_word ri)) (Z.of_nat CHUNK_LEN) Or U16))
    as (cp & Ec & Oc & Vc).
  { cbn [uval from_word]. unfold CHUNK_LEN. eapply Z.lt_le_trans; [|apply (Bn_MAXV_le 16); pose proof MAX_LEN_ge; lia].
    unfold Bn. apply Z.pow_lt_mono_l; lia. }
  rewrite Ec in E1. cbn [bind] in E1. cbn [uval from_word] in Vc. change (Z.of_nat CHUNK_LEN) with 16 in Vc.
  rewrite ubig_lt_spec in E1 by auto. cbn [bind] in E1. rewrite Vc in E1.
  destruct (as_words_wf x Hx) as (Wx & Vx). pose proof (val_bound _ Wx) as Hb. rewrite Vx in Hb.
  destruct (Z.ltb_spec (uval x) (range_per_word ri ^ 16)) as [G|G].
  - destruct (npm_new x radix) as [top|]; [|discriminate]. cbn [bind] in E1. injection E1 as <-.
    cbn [npl_powers npl_chunks length]. split; [|constructor].
    change (2 ^ Z.of_nat 0) with 1. destruct (as_words x); cbn [length] in *; [|lia].
    rewrite Bn_0 in Hb. lia.
  - assert (PO : powers_ok ri ([] ++ [cp])).
    { apply powers_ok_snoc; auto. intros [|i] q E; discriminate. }
    destruct (npl_powers_loop_spec radix ri Hr Eri NI x Hx Hv (S (length (as_words x))) cp [] PO) as (ps & p & Ep & PO' & Lp); [lia|cbn [length]; lia|].
    cbn [app] in Ep. rewrite Ep in E1. cbn [bind] in E1. rewrite rev_app_distr in E1. cbn [rev app] in E1.
    destruct (ubig_div_rem_rr x p) as [[q r]|]; [|discriminate]. cbn [bind] in E1.
    destruct (npl_split (rev ps) q _) as [[y chunks]|] eqn:Es; [|discriminate]. cbn [bind] in E1.
    destruct (npm_new y radix) as [top|]; [|discriminate]. cbn [bind] in E1. injection E1 as <-.
    cbn [npl_powers npl_chunks]. rewrite app_length. cbn [length]. split.
    + destruct (PO' (length ps) p) as [Op Vp].
      { rewrite nth_error_app2, Nat.sub_diag by lia. reflexivity. }
      pose proof (cpow_B radix ri Hr Eri NI (length ps)) as CB. rewrite <- Vp in CB. unfold Bn in Hb.
      assert (2 ^ Z.of_nat (length ps) < Z.of_nat (length (as_words x))) as H2.
      { apply (Z.pow_lt_mono_r_iff B); [pose proof B_ge; lia|lia|]. lia. }
      rewrite Nat2Z.inj_add, Z.pow_add_r by lia. change (2 ^ Z.of_nat 1) with 2. lia.
    + apply (npl_split_index _ _ _ _ _ _ Es); [rewrite rev_length; lia|].
      constructor; [cbn [fst]; rewrite rev_length; lia|constructor].
Qed.

End Depth.
