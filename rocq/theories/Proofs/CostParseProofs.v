(** Counting what parsing does (Model/CostParse.v). *)
From Coq Require Import Lia.
From Verif Require Import Model.Base Model.Words Model.Mul Model.Buffer Model.UBig Model.IBig Model.AddOps
  Model.MulOps Model.Pow Model.Radix Model.Parse Model.Cost Model.CostDiv Model.CostOps Model.CostParse Spec.Val.
From Verif Require Import Proofs.Basics Proofs.CostProofs Proofs.CostBounds Proofs.CostTheorems Proofs.CostRates Proofs.CostOpsProofs
  Proofs.CostOpsBounds Proofs.RadixProofs Proofs.ParseProofs.

Section Erase.
Context {A : Arch}.

Lemma snd_cpbind {S T} (m : counted (presult S)) (k : S -> counted (presult T)) m' k' :
  snd m = m' -> (forall x, snd (k x) = k' x) -> snd (cpbind m k) = pbind m' k'.
Proof.
  intros <- K. unfold cpbind, pbind. rewrite snd_cbind. destruct (snd m) as [[x|e]|p]; cbn; auto.
Qed.

Lemma snd_cpok {T} (m : counted T) m' : snd m = m' -> snd (cpok m) = pok m'.
Proof. intros <-. unfold cpok, pok. rewrite snd_cbind. reflexivity. Qed.

Ltac per1 :=
  lazymatch goal with
  | |- snd (free _) = _ => exact eq_refl
  | |- snd (call _ _) = _ => exact eq_refl
  | |- snd (cpbind _ _) = _ => apply snd_cpbind; [|let x := fresh "x" in intros x]
  | |- snd (cpok _) = _ => apply snd_cpok
  | |- snd (cbind _ _) = _ => rewrite snd_cbind; apply bind_ext; [|let x := fresh "x" in intros x; pairs x; cbv beta iota]
  | |- snd (c_on_words _ _) = _ => apply on_words_erase; intros
  | |- snd (match ?x with _ => _ end) = _ => destruct x
  | |- _ => first [match goal with H : forall _, _ |- _ => apply H end | reflexivity]
  end.
Ltac per := repeat per1.

Lemma p2_loop_erase radix lr bytes : forall b w k, snd (c_p2_large_loop radix lr bytes b w k) = p2_large_loop radix lr bytes b w k.
Proof. induction bytes as [|x bytes IH]; intros; cbn [c_p2_large_loop p2_large_loop]; cbv zeta; unfold c_from_buffer; per. Qed.

Lemma p2_erase src radix : snd (c_p2_parse src radix) = p2_parse src radix.
Proof.
  unfold c_p2_parse, p2_parse, c_p2_parse_word, c_p2_parse_large, p2_parse_large. cbv zeta. pose proof p2_loop_erase. per.
Qed.

Lemma chunk_loop_erase ri radix gs : forall b, snd (c_np_chunk_loop ri radix gs b) = np_chunk_loop ri radix gs b.
Proof. induction gs as [|g gs IH]; intros; cbn [c_np_chunk_loop np_chunk_loop]; unfold c_from_buffer, c_np_parse_word; per. Qed.

Lemma chunk_erase src radix : snd (c_np_parse_chunk src radix) = np_parse_chunk src radix.
Proof. unfold c_np_parse_chunk, np_parse_chunk. cbv zeta. pose proof chunk_loop_erase. per. Qed.

Lemma powers_erase fuel : forall cb n ps, snd (c_powers_loop fuel cb n ps) = powers_loop fuel cb n ps.
Proof. pose proof mul_rr_erase. induction fuel as [|fuel IH]; intros; cbn [c_powers_loop powers_loop]; cbv zeta; per. Qed.

Lemma dc_erase radix cb ps : forall bytes, snd (c_np_divide_conquer bytes radix cb ps) = np_divide_conquer bytes radix cb ps.
Proof.
  pose proof mul_vr_erase. pose proof add_vv_erase. pose proof chunk_erase.
  induction ps as [|p ps IH]; intros; cbn [c_np_divide_conquer np_divide_conquer]; per.
Qed.

Lemma np_erase src radix : snd (c_np_parse src radix) = np_parse src radix.
Proof.
  unfold c_np_parse, np_parse, c_np_parse_word, c_np_parse_large, np_parse_large.
  pose proof chunk_erase. pose proof pow_erase. pose proof powers_erase. pose proof dc_erase. per.
Qed.

Lemma no_sign_erase src radix : snd (c_from_str_radix_no_sign src radix) = from_str_radix_no_sign src radix.
Proof.
  unfold c_from_str_radix_no_sign, from_str_radix_no_sign. rewrite snd_cbind. apply bind_ext; [reflexivity|]. intros _.
  destruct src as [|x src]; [reflexivity|]. rewrite snd_cbind, snd_call. cbn [bind]. cbv zeta. destruct (is_pow2 radix); [apply p2_erase|apply np_erase].
Qed.

Theorem ubig_parse_erase src radix : snd (c_ubig_from_str_radix src radix) = ubig_from_str_radix src radix.
Proof. unfold c_ubig_from_str_radix, ubig_from_str_radix. pose proof no_sign_erase. per. Qed.

Theorem ibig_parse_erase src radix : snd (c_ibig_from_str_radix src radix) = ibig_from_str_radix src radix.
Proof.
  unfold c_ibig_from_str_radix, ibig_from_str_radix. rewrite snd_cbind. apply bind_ext; [reflexivity|]. intros _.
  destruct (strip_sign src) as [s t]. apply snd_cpbind; [apply no_sign_erase|reflexivity].
Qed.

(** *** The counter is not negative. *)

Lemma nn_cpbind {S T} (m : counted (presult S)) (k : S -> counted (presult T)) :
  0 <= fst m -> (forall x, 0 <= fst (k x)) -> 0 <= fst (cpbind m k).
Proof. intros M K. unfold cpbind. apply nn_bind; [exact M|]. intros [x|e]; [apply K|apply nn_free]. Qed.

Lemma nn_cpok {T} (m : counted T) : 0 <= fst m -> 0 <= fst (cpok m).
Proof. intros M. unfold cpok. apply nn_bind; [exact M|]. intros x. apply nn_free. Qed.

Ltac pnn1 :=
  lazymatch goal with
  | |- 0 <= fst (free _) => apply nn_free
  | |- 0 <= fst (call _ _) => apply nn_call
  | |- 0 <= fst (cpbind _ _) => apply nn_cpbind; [|let x := fresh "x" in intros x]
  | |- 0 <= fst (cpok _) => apply nn_cpok
  | |- 0 <= fst (cbind _ _) => apply nn_bind; [|let x := fresh "x" in intros x; pairs x; cbv beta iota]
  | |- 0 <= fst (c_on_words _ _) => apply nn_on_words; intros
  | |- 0 <= fst (match ?x with _ => _ end) => destruct x
  | |- _ => match goal with H : forall _, _ |- _ => apply H end
  end.
Ltac pnn := repeat pnn1.

Lemma p2_loop_nn radix lr bytes : forall b w k, 0 <= fst (c_p2_large_loop radix lr bytes b w k).
Proof. induction bytes as [|x bytes IH]; intros; cbn [c_p2_large_loop]; cbv zeta; unfold c_from_buffer; pnn. Qed.

Lemma p2_nn src radix : 0 <= fst (c_p2_parse src radix).
Proof. unfold c_p2_parse, c_p2_parse_word, c_p2_parse_large. cbv zeta. pose proof p2_loop_nn. pnn. Qed.

Lemma chunk_loop_nn ri radix gs : forall b, 0 <= fst (c_np_chunk_loop ri radix gs b).
Proof. induction gs as [|g gs IH]; intros; cbn [c_np_chunk_loop]; unfold c_from_buffer, c_np_parse_word; pnn. Qed.

Lemma chunk_nn src radix : 0 <= fst (c_np_parse_chunk src radix).
Proof. unfold c_np_parse_chunk. cbv zeta. pose proof chunk_loop_nn. pnn. Qed.

Lemma powers_nn fuel : forall cb n ps, 0 <= fst (c_powers_loop fuel cb n ps).
Proof. pose proof mul_rr_nn. induction fuel as [|fuel IH]; intros; cbn [c_powers_loop]; cbv zeta; pnn. Qed.

Lemma dc_nn radix cb ps : forall bytes, 0 <= fst (c_np_divide_conquer bytes radix cb ps).
Proof.
  pose proof mul_vr_nn. pose proof add_vv_nn. pose proof chunk_nn.
  induction ps as [|p ps IH]; intros; cbn [c_np_divide_conquer]; pnn.
Qed.

Lemma np_nn src radix : 0 <= fst (c_np_parse src radix).
Proof.
  unfold c_np_parse, c_np_parse_word, c_np_parse_large.
  pose proof chunk_nn. pose proof pow_nn. pose proof powers_nn. pose proof dc_nn. pnn.
Qed.

Lemma no_sign_nn src radix : 0 <= fst (c_from_str_radix_no_sign src radix).
Proof. unfold c_from_str_radix_no_sign. pose proof p2_nn. pose proof np_nn. pnn. Qed.

Theorem ubig_parse_nn src radix : 0 <= fst (c_ubig_from_str_radix src radix).
Proof. unfold c_ubig_from_str_radix. pose proof no_sign_nn. pnn. Qed.

Theorem ibig_parse_nn src radix : 0 <= fst (c_ibig_from_str_radix src radix).
Proof. unfold c_ibig_from_str_radix. pose proof no_sign_nn. pnn. Qed.

End Erase.

(** ** Bounds *)

Definition good {T} (P : T -> Prop) (r : presult T) : Prop := match r with POk x => P x | PErr _ => True end.

Section Bounds.
Context {A : Arch} {AOK : ArchOk A}.

Lemma costs_cpbind {S T} (m : counted (presult S)) (k : S -> counted (presult T)) X N Q P :
  costs m X (good Q) -> X <= N -> (forall v, Q v -> costs (k v) (N - X) (good P)) -> costs (cpbind m k) N (good P).
Proof.
  intros M L K. unfold cpbind. eapply costs_bind; [exact M|]. intros [v|e] G; [apply K; exact G|]. apply costs_ok; [lia|exact I].
Qed.

Lemma costs_cpok {T} (m : counted T) N P : costs m N P -> costs (cpok m) N (good P).
Proof. intros M. unfold cpok. eapply costs_bind; [exact M|]. intros v V. apply costs_ok; [lia|exact V]. Qed.

Lemma costs_pcall {T} n (m : res (presult T)) X : Z.of_nat n + 1 <= X -> costs (call n m) X (good (fun _ => True)).
Proof. intros L. eapply costs_weaken; [apply costs_call|exact L|]. now intros [x|e]. Qed.

Lemma blen_nonneg b : 0 <= blen b. Proof. unfold blen, len. lia. Qed.

Lemma push_blen b w b' : push b w = Ok b' -> blen b' = blen b + 1.
Proof. intros E. apply push_words in E. unfold blen, len. rewrite E, app_length. cbn [length]. lia. Qed.

Lemma allocate_blen n b : allocate n = Ok b -> blen b = 0.
Proof. intros E. apply allocate_words in E. unfold blen. rewrite E. reflexivity. Qed.

(** *** Radices that are powers of two *)

Lemma p2_loop_costs radix lr bytes : forall b w k,
  costs (c_p2_large_loop radix lr bytes b w k) (2 * blen b + 4 * len bytes + 4) (good (fun _ => True)).
Proof.
  assert (LC : forall (x : Z) l, len (x :: l) = len l + 1) by (intros; unfold len; cbn [length]; lia).
  assert (LN : forall l : list Z, 0 <= len l) by (intros; unfold len; lia).
  induction bytes as [|x bytes IH]; intros b w k; cbn [c_p2_large_loop]; pose proof (blen_nonneg b) as B0.
  - change (len []) with 0. eapply (costs_bind _ _ 1 _ (fun b' => blen b' <= blen b + 1)).
    + destruct (0 <? k); [|apply costs_ok; lia]. eapply costs_weaken; [apply costs_call|lia|]. intros b' E. apply push_blen in E. lia.
    + intros b' L. apply costs_cpok. eapply costs_weaken; [apply (from_buffer_costs b' (2 * blen b + 3)); lia|lia|auto].
  - rewrite LC. specialize (LN bytes). eapply (costs_cpbind _ _ 1); [apply costs_pcall; lia|lia|]. intros d _.
    apply costs_bind_free. intros _ _. cbv zeta. apply costs_bind_free. intros nb _. destruct (wbits <=? nb).
    + apply costs_bind_call. intros b' E. apply push_blen in E. apply costs_bind_free. intros _ _.
      eapply costs_weaken; [apply IH|lia|auto].
    + eapply costs_weaken; [apply IH|lia|auto].
Qed.

Lemma p2_costs src radix n : len src <= n -> 1 <= n -> costs (c_p2_parse src radix) (9 * n) (good (fun _ => True)).
Proof.
  intros L N1. unfold c_p2_parse. apply costs_bind_free. intros _ _. apply costs_bind_free. intros ri _.
  match goal with |- costs (if ?b then _ else _) _ _ => destruct b end.
  - eapply (costs_cpbind _ _ (n + 1)); [apply costs_pcall; unfold len in L; lia|lia|]. intros w _. apply costs_ok; [lia|exact I].
  - unfold c_p2_parse_large. apply costs_bind_free. intros _ _. cbv zeta.
    match goal with |- costs (if ?b then _ else _) _ _ => destruct b end; [apply costs_panic|].
    apply costs_bind_free. intros n1 _. apply costs_bind_call. intros b E. apply allocate_blen in E.
    eapply costs_weaken; [apply p2_loop_costs| |auto]. unfold len in *. rewrite rev_length. lia.
Qed.

(** *** Other radices *)


Lemma usize_chk_val z m : usize_chk z = Ok m -> m = z.
Proof. unfold usize_chk, checked. destruct (_ && _); congruence. Qed.

Lemma chunk_loop_costs ri radix M gs : forall b, blen b + Z.of_nat (length gs) <= M ->
  costs (c_np_chunk_loop ri radix gs b) (len (concat gs) + Z.of_nat (length gs) * (M + 3) + 2 * M + 1) (good (lens_below (Z.max 1 M))).
Proof.
  induction gs as [|g gs IH]; intros b L; cbn [c_np_chunk_loop concat length] in *; pose proof (blen_nonneg b) as B0.
  - change (len []) with 0. apply costs_cpok. eapply costs_weaken; [apply (from_buffer_costs b (2 * blen b + 1)); lia|lia|].
    intros u U. unfold lens_below. cbv beta in U. lia.
  - assert (LC : len (g ++ concat gs) = len g + len (concat gs)) by (unfold len; rewrite app_length; lia). rewrite LC.
    assert (L0 : 0 <= len g /\ 0 <= len (concat gs)) by (unfold len; lia).
    rewrite Nat2Z.inj_succ in *. set (G := Z.of_nat (length gs)) in *. assert (G0 : 0 <= G) by lia.
    eapply (costs_cpbind _ _ (len g + 1)); [apply costs_pcall; unfold len; lia|nia|]. intros next _.
    eapply costs_bind_words; [apply (call_keeps (words b)); intros w' r E; now apply mul_word_len in E|]. intros b' c E. cbv beta iota.
    fold (len (words b)). fold (blen b). assert (LB : blen b' = blen b) by (unfold blen, len; lia).
    eapply (costs_bind _ _ 1 _ (fun b2 => blen b2 <= blen b + 1)).
    + destruct (c =? 0); [apply costs_ok; lia|]. eapply costs_weaken; [apply costs_call|lia|]. intros b2 E2. apply push_blen in E2. lia.
    + intros b2 L2. cbv beta in L2. eapply costs_weaken; [apply IH; lia| |auto]. nia.
Qed.

Lemma chunk_costs src radix n : len src <= n -> 1 <= n -> costs (c_np_parse_chunk src radix) (264 * n) (good (lens_below 256)).
Proof.
  intros L N1. unfold c_np_parse_chunk. apply costs_bind_free. intros u0 V. apply assert_ok in V. apply andb_prop in V. destruct V as [V1 V2].
  apply costs_bind_free. intros ri RI. destruct (radix_info_np radix) as (ri' & RE & NP); [now apply is_radix_valid_iff|now destruct (is_pow2 radix)|].
  rewrite RE in RI. injection RI as <-. destruct NP as (_ & D & _). clear V1 V2 RE.
  apply costs_bind_free. intros m E. apply usize_chk_val in E.
  apply costs_bind_free. intros u1 C. apply assert_ok in C. apply Z.leb_le in C. cbv zeta.
  destruct (rchunks_rev_spec (Z.to_nat (digits_per_word ri')) src) as (R1 & _ & _ & R4); [lia|].
  set (gs := rchunks_rev _ src) in *. apply costs_bind_call. intros b EB. apply allocate_blen in EB.
  set (d := digits_per_word ri') in *. set (G := Z.of_nat (length gs)) in *. unfold PARSE_CHUNK_LEN in E.
  assert (X : d * (G - 1) < len src) by (unfold len; subst G; nia).
  assert (G1 : G <= n) by nia. assert (G2 : G <= 256) by nia. assert (G0 : 0 <= G) by lia.
  eapply costs_weaken; [apply (chunk_loop_costs ri' radix G gs b); lia| |].
  - rewrite R1. fold G. nia.
  - intros [u|e]; [|auto]. cbn [good]. unfold lens_below. lia.
Qed.

(** [radix_powers], last element first: at most 256, 512, 1024, .. words. *)
Fixpoint sized (ps : list ubig) : Prop :=
  match ps with [] => True | p :: t => 1 <= ulen p <= 256 * 2 ^ Z.of_nat (length t) /\ sized t end.

Lemma powers_costs H cb n : 256 <= cb -> rate (Z.to_nat n) H -> forall fuel t p,
  sized (p :: t) -> cb * 2 ^ Z.of_nat (length t) < n ->
  costs (c_powers_loop fuel cb n (p :: t)) ((3 * H + 26) * (n - 256 * 2 ^ Z.of_nat (length t)))
    (fun ps => sized ps /\ exists q t', ps = q :: t' /\ cb * 2 ^ Z.of_nat (length t') < n).
Proof.
  intros CB R. assert (H1 : 1 <= H) by (destruct R as [R _]; lia). set (K := 3 * H + 26). assert (K1 : 29 <= K) by lia.
  induction fuel as [|fuel IH]; intros t p SZ LT; cbn [c_powers_loop]; cbv zeta; apply costs_bind_free; intros _ _;
    pose proof (Z.pow_pos_nonneg 2 (Z.of_nat (length t)) ltac:(lia) ltac:(lia)) as P2; set (x := 2 ^ Z.of_nat (length t)) in *.
  - match goal with |- costs (if ?b then _ else _) _ _ => destruct b end; [apply costs_panic|]. apply costs_ok; [nia|]. split; [exact SZ|]. exists p, t. split; [reflexivity|exact LT].
  - destruct (Z.leb_spec cb (Z.shiftr (n - 1) (Z.of_nat (length (p :: t))))) as [C|C].
    2: { apply costs_ok; [nia|]. split; [exact SZ|]. exists p, t. split; [reflexivity|exact LT]. }
    cbn [length] in C. rewrite Nat2Z.inj_succ, Z.shiftr_div_pow2, Z.pow_succ_r in C by lia. fold x in C.
    assert (C2 : cb * (2 * x) < n).
    { apply (Z.mul_le_mono_nonneg_r _ _ (2 * x)) in C; [|lia]. pose proof (Z.mul_div_le (n - 1) (2 * x) ltac:(lia)). lia. }
    pose proof SZ as SZ'. cbn [sized] in SZ. fold x in SZ. destruct SZ as [SP ST].
    eapply costs_bind; [apply (mul_ops_costs H p p (256 * x) (256 * x)); [exact SP|exact SP|]|].
    + eapply rate_le; [exact R|]. nia.
    + intros q Q. unfold lens_below in Q. pose proof (mul_bound_same H (256 * x) ltac:(lia) ltac:(lia)) as MB. fold K in MB.
      eapply costs_weaken; [apply IH| |auto].
      * cbn [sized length]. cbn [sized] in SZ'. rewrite Nat2Z.inj_succ, Z.pow_succ_r by lia. fold x. fold x in SZ'. split; [lia|exact SZ'].
      * cbn [length]. rewrite Nat2Z.inj_succ, Z.pow_succ_r by lia. fold x. exact C2.
      * cbn [length]. rewrite Nat2Z.inj_succ, Z.pow_succ_r by lia. fold x. nia.
Qed.

Definition conquers (radix cb : Z) (k : nat) (S : Z) : Prop := forall ps bytes, length ps = k -> sized ps ->
  ((1 <= k)%nat -> cb * 2 ^ (Z.of_nat k - 1) < 2 ^ ubits) -> 1 <= len bytes ->
  costs (c_np_divide_conquer bytes radix cb ps) (S * len bytes) (good (lens_below (257 * 2 ^ Z.of_nat k - 1))).

Lemma conquers_step radix cb k S H : 256 <= cb -> 0 <= S -> rate (Z.to_nat (257 * 2 ^ Z.of_nat k)) H -> conquers radix cb k S ->
  conquers radix cb (Datatypes.S k) (S + (4 * H + 42)).
Proof.
  intros CB S0 R C ps bytes LP SZ W L1. destruct ps as [|p ps]; [discriminate|]. cbn [length] in LP. injection LP as LP. specialize (W ltac:(lia)).
  replace (Z.of_nat (Datatypes.S k) - 1) with (Z.of_nat k) in W by lia. rewrite Nat2Z.inj_succ, Z.pow_succ_r by lia.
  assert (X1 : 1 <= 2 ^ Z.of_nat k) by (pose proof (Z.pow_pos_nonneg 2 (Z.of_nat k)); lia).
  assert (H25 : 25 <= H) by (destruct R as [R _]; lia).
  assert (W' : (1 <= k)%nat -> cb * 2 ^ (Z.of_nat k - 1) < 2 ^ ubits).
  { intros K1. apply Z.le_lt_trans with (cb * 2 ^ Z.of_nat k); [|exact W]. apply Z.mul_le_mono_nonneg_l; [lia|]. apply Z.pow_le_mono_r; lia. }
  cbn [sized] in SZ. rewrite LP in SZ. destruct SZ as [SP ST]. cbn [c_np_divide_conquer]. rewrite LP.
  set (x := 2 ^ Z.of_nat k) in *. apply costs_bind_call. intros lim _. apply costs_bind_free. intros _ _.
  apply costs_bind_free. intros lo EL. unfold shl_usize in EL. apply check_ok in EL. destruct EL as [_ EL].
  assert (ELO : lo = cb * x) by (injection EL as <-; rewrite Z.shiftl_mul_pow2 by lia; apply Z.mod_small; fold x; nia). clear EL.
  change (Z.of_nat 0 + 1) with 1.
  destruct (Z.leb_spec (len bytes) lo) as [C1|C1].
  - eapply costs_weaken; [apply (C ps bytes); [exact LP|exact ST|exact W'|exact L1]|nia|]. intros [u|e]; [|auto]. cbn [good]. unfold lens_below. fold x. lia.
  - apply costs_bind_free. intros [hi l] ES. apply split_len in ES. cbv beta iota.
    assert (LL : len hi = len bytes - lo /\ len l = lo) by (unfold len in *; lia). clear ES. destruct LL as [LH LLO].
    assert (LO1 : 1 <= lo) by nia.
    assert (NB : 256 * (257 * x) <= 257 * len bytes) by nia.
    eapply (costs_cpbind _ _ (S * len hi)); [apply (C ps hi); [exact LP|exact ST|exact W'|lia]|nia|]. intros rh RH. fold x in RH. unfold lens_below in RH.
    eapply (costs_cpbind _ _ (S * len l)); [apply (C ps l); [exact LP|exact ST|exact W'|lia]|nia|]. intros rl RL. fold x in RL. unfold lens_below in RL.
    eapply costs_bind; [apply (mul_ops_costs H rh p (257 * x) (257 * x)); [lia|lia|rewrite Z.min_id; exact R]|]. intros pr PR. unfold lens_below in PR.
    apply costs_cpok. eapply costs_weaken; [apply (add_costs pr rl (513 * x - 1)); lia| |unfold lens_below; intros u U; lia].
    pose proof (mul_bound_same H (257 * x) ltac:(lia) ltac:(lia)) as MB.
    apply Z.le_trans with ((S + (4 * H + 42)) * len bytes - 1 - S * len hi - S * len l - (3 * H + 26) * (257 * x)); [|lia].
    rewrite LH, LLO. assert (Y : 256 * ((3 * H + 41) * (257 * x)) <= 256 * ((4 * H + 42) * len bytes)).
    { apply Z.le_trans with ((3 * H + 41) * (257 * len bytes)).
      - replace (256 * ((3 * H + 41) * (257 * x))) with ((3 * H + 41) * (256 * (257 * x))) by ring. apply Z.mul_le_mono_nonneg_l; [lia|exact NB].
      - nia. }
    nia.
Qed.

Lemma conquers_le radix cb k S S' : S <= S' -> conquers radix cb k S -> conquers radix cb k S'.
Proof. intros L C ps bytes LP SZ W L1. eapply costs_weaken; [apply (C ps bytes); assumption|nia|auto]. Qed.

Lemma conquers_levels radix cb : 256 <= cb -> forall k, exists S, below S 1210 (257 * 2 ^ Z.of_nat k) /\
  forall j, (j <= k)%nat -> conquers radix cb j S.
Proof.
  intros CB. induction k as [|k (S & SB & C)].
  - exists 265. split; [apply (below_const 265 1210 _ 1); [lia|lia|cbn; lia|consts]|]. intros j J. assert (j = O) as -> by lia.
    intros ps bytes LP _ _ L1. destruct ps; [|discriminate]. cbn [c_np_divide_conquer]. apply costs_bind_call. intros lim _. apply costs_bind_free. intros _ _.
    eapply costs_weaken; [apply (chunk_costs bytes radix (len bytes)); lia|cbn; lia|]. intros [u|e]; [|auto]. cbn [good]. unfold lens_below. cbn. lia.
  - assert (P : 257 <= 257 * 2 ^ Z.of_nat k) by (pose proof (Z.pow_pos_nonneg 2 (Z.of_nat k)); lia).
    assert (D1 : (1 <= Z.to_nat (257 * 2 ^ Z.of_nat k))%nat) by lia. destruct (rate_below _ D1) as (H & R & HB). rewrite Z2Nat.id in HB by lia.
    assert (H1 : 1 <= H) by (destruct R as [R _]; clear SB HB; lia).
    exists (S + (4 * H + 42)). split.
    2: { intros j J. destruct (Nat.eq_dec j (Datatypes.S k)) as [->|J2].
         - apply conquers_step; [exact CB|apply SB|exact R|apply C; lia].
         - apply (conquers_le _ _ _ S); [clear SB HB; lia|]. apply C. clear SB HB; lia. }
    rewrite Nat2Z.inj_succ, Z.pow_succ_r by lia. replace (257 * (2 * 2 ^ Z.of_nat k)) with (2 * (257 * 2 ^ Z.of_nat k)) by ring.
    clear R C. set (d := 257 * 2 ^ Z.of_nat k) in *. clearbody d.
    assert (V : below (4 * H + 42) (4 * 114 + 9) d).
    { apply below_add; [lia|lia|lia|apply below_scale; [lia|exact HB]|apply (below_const 42 9 d 257); [lia|lia|lia|consts]]. }
    apply (below_add _ _ 874 336); [lia|lia|lia| |].
    + apply (below_double _ 1210); [lia|lia|consts|exact SB].
    + apply (below_double _ (4 * 114 + 9)); [lia|lia|consts|exact V].
Qed.

Lemma np_large_costs src radix : 1 <= len src < 2 ^ ubits ->
  exists T, below T 4043 (len src) /\ costs (c_np_parse_large src radix) (T * len src) (good (fun _ => True)).
Proof.
  intros LU. assert (Z0 : below 0 4043 (len src)) by (apply (below_const 0 4043 _ 1); [lia|lia|lia|consts]).
  destruct (is_radix_valid radix && negb (is_pow2 radix)) eqn:V.
  2: { exists 0. split; [exact Z0|]. unfold c_np_parse_large. rewrite V. intros x E. discriminate. }
  pose proof V as V0. apply andb_prop in V. destruct V as [V1 V2].
  destruct (radix_info_np radix) as (ri & RE & NP); [now apply is_radix_valid_iff|now destruct (is_pow2 radix)|]. destruct NP as (_ & D & _).
  set (n := len src) in *. set (cb := PARSE_CHUNK_LEN * digits_per_word ri). assert (CB : 256 <= cb) by (unfold cb, PARSE_CHUNK_LEN; lia).
  assert (BODY : forall T, (cb < n -> costs (
      p <+ c_ubig_pow (from_word (range_per_word ri)) PARSE_CHUNK_LEN ;;
      radix_powers <+ c_powers_loop (Z.to_nat ubits) cb (len src) [p] ;;
      c_np_divide_conquer src radix cb radix_powers) (T * n) (good (fun _ => True))) ->
    costs (c_np_parse_large src radix) (T * n) (good (fun _ => True))).
  { intros T C. unfold c_np_parse_large. rewrite V0. apply costs_bind_free. intros u0 _. apply costs_bind_free. intros ri' E. rewrite RE in E. injection E as <-.
    apply costs_bind_free. intros m E. apply usize_chk_val in E. fold cb in E. subst m. apply costs_bind_free. intros u1 E2. apply assert_ok in E2. apply Z.ltb_lt in E2.
    apply C. exact E2. }
  destruct (Z.leb_spec n cb) as [SM|SM]; [exists 0; split; [exact Z0|]; apply BODY; clear Z0; lia|].
  clear Z0.
  assert (N1 : (1 <= Z.to_nat n)%nat) by lia. destruct (rate_below _ N1) as (H & R & HB). rewrite Z2Nat.id in HB by lia.
  assert (H1 : 1 <= H) by (destruct R as [R _]; clear HB; lia).
  assert (Q1 : 1 <= (n - 1) / cb) by (apply Z.div_le_lower_bound; clear HB; lia).
  assert (Q2 : cb * 2 ^ Z.log2 ((n - 1) / cb) < n).
  { pose proof (Z.log2_spec ((n - 1) / cb) ltac:(clear HB; lia)) as [Q _]. pose proof (Z.mul_div_le (n - 1) cb ltac:(clear HB; lia)). clear HB. nia. }
  pose proof (Z.log2_nonneg ((n - 1) / cb)) as Q0.
  destruct (conquers_levels radix cb CB (Z.to_nat (Z.log2 ((n - 1) / cb) + 1))) as (S & SB & C). rewrite Z2Nat.id in SB by (clear HB; lia).
  assert (SN : below S 2323 n).
  { apply (below_half _ 1677); [clear - LU; lia|lia|consts|]. apply (below_half _ 1210); [clear - LU; lia|lia|consts|].
    eapply below_mono; [| |exact SB]; [lia|]. clear SB HB. rewrite Z.pow_add_r by lia. change (2 ^ 1) with 2. nia. }
  assert (S0 : 0 <= S) by apply SB. clear SB.
  exists (S + (15 * H + 130)). split.
  { apply (below_add _ _ 2323 1720); [lia|lia|clear - LU; lia|exact SN|].
    apply (below_add _ _ (15 * 114) 10); [lia|lia|clear - LU; lia|apply below_scale; [lia|exact HB]|].
    apply (below_const 130 10 n 257); [lia|lia|clear - CB SM; lia|consts]. }
  clear SN HB. apply BODY. intros _.
  eapply costs_bind; [apply (pow_costs H 1 (from_word (range_per_word ri)) PARSE_CHUNK_LEN); [cbn; lia|unfold PARSE_CHUNK_LEN; lia|]|].
  { eapply rate_le; [exact R|]. unfold PARSE_CHUNK_LEN. lia. }
  intros p P. unfold lens_below, PARSE_CHUNK_LEN in P.
  eapply costs_bind; [apply (powers_costs H cb n CB R _ [] p)|].
  - cbn [sized length]. change (2 ^ Z.of_nat 0) with 1. split; [lia|exact I].
  - cbn [length]. change (2 ^ Z.of_nat 0) with 1. lia.
  - intros ps (SZ & q & t & -> & LT). eapply costs_weaken; [apply (C (Datatypes.S (length t)))| |intros [u|e] _; exact I].
    + assert (Z.of_nat (length t) <= Z.log2 ((n - 1) / cb)); [|lia]. apply Z.log2_le_pow2; [lia|]. apply Z.div_le_lower_bound; lia.
    + reflexivity.
    + exact SZ.
    + intros _. replace (Z.of_nat (Datatypes.S (length t)) - 1) with (Z.of_nat (length t)) by lia. lia.
    + fold n. lia.
    + fold n. cbn [length]. change (2 ^ Z.of_nat 0) with 1. unfold PARSE_CHUNK_LEN.
      assert (1024 * (3 * H + 26) <= (4 * n) * (3 * H + 26)) by (apply Z.mul_le_mono_nonneg_r; lia). nia.
Qed.

Lemma strip_zeros_len src : len (strip_zeros src) <= len src.
Proof.
  induction src as [|x src IH]; [cbn; lia|]. cbn [strip_zeros]. destruct (x =? 48); [|lia]. unfold len in *. cbn [length]. lia.
Qed.

Lemma no_sign_costs src radix n : len src <= n -> 1 <= n < 2 ^ ubits ->
  exists T, below T 4050 n /\ costs (c_from_str_radix_no_sign src radix) (T * n) (good (fun _ => True)).
Proof.
  intros L N. pose proof (strip_zeros_len src) as LS. set (t := strip_zeros src) in *.
  assert (X : exists T, below T 4048 n /\ costs (if is_pow2 radix then c_p2_parse t radix else c_np_parse t radix) (T * n) (good (fun _ => True))).
  { destruct (is_pow2 radix).
    { exists 9. split; [apply (below_const 9 4048 n 1); [lia|lia|lia|consts]|]. apply p2_costs; lia. }
    assert (LN : exists T, below T 4043 n /\ (1 <= len t -> costs (c_np_parse_large t radix) (T * n) (good (fun _ => True)))).
    { destruct (Z.leb_spec 1 (len t)) as [L1|L1].
      - destruct (np_large_costs t radix) as (T & TB & C); [lia|]. exists T. assert (T0 : 0 <= T) by apply TB. split.
        + eapply below_mono; [| |exact TB]; [lia|]. clear TB. lia.
        + intros _. clear TB. eapply costs_weaken; [exact C|nia|auto].
      - exists 0. split; [apply (below_const 0 4043 n 1); [lia|lia|lia|consts]|]. lia. }
    destruct LN as (T & TB & C). exists (Z.max T 264). assert (T0 : 0 <= T) by apply TB. split.
    { destruct (Z.max_spec T 264) as [[_ ->]|[_ ->]]; [apply (below_const 264 4048 n 1); [lia|lia|clear TB; lia|consts]|].
      eapply below_mono; [| |exact TB]; clear TB; lia. }
    clear TB. unfold c_np_parse. apply costs_bind_free. intros u0 V. apply assert_ok in V. apply andb_prop in V. destruct V as [V1 V2].
    apply costs_bind_free. intros ri RI. destruct (radix_info_np radix) as (ri' & RE & NP); [now apply is_radix_valid_iff|now destruct (is_pow2 radix)|].
    rewrite RE in RI. injection RI as <-. destruct NP as (_ & D & _).
    match goal with |- costs (if ?b then _ else _) _ _ => destruct b eqn:E end.
    - eapply (costs_cpbind _ _ (n + 1)); [apply costs_pcall; unfold len in *; lia|nia|]. intros w _. apply costs_ok; [nia|exact I].
    - apply Z.leb_gt in E. apply costs_bind_free. intros m _. match goal with |- costs (if ?b then _ else _) _ _ => destruct b eqn:E2 end.
      + eapply costs_weaken; [apply (chunk_costs t radix n); lia|nia|intros [u|e] _; exact I].
      + eapply costs_weaken; [apply C; lia|nia|auto]. }
  destruct X as (T & TB & C). exists (T + 2). assert (T0 : 0 <= T) by apply TB. split.
  { apply (below_add _ _ 4048 2); [lia|lia|clear TB; lia|exact TB|apply (below_const 2 2 n 1); [lia|lia|clear TB; lia|consts]]. }
  clear TB. unfold c_from_str_radix_no_sign. apply costs_bind_free. intros u0 _. destruct src as [|x src]; [apply costs_ok; [nia|exact I]|].
  apply costs_bind_call. intros s E. assert (s = t) as -> by (injection E as <-; reflexivity).
  eapply costs_weaken; [exact C|unfold len in *; nia|auto].
Qed.

Lemma strip_char_len c src s : strip_char c src = Some s -> len s <= len src.
Proof. destruct src as [|x src]; [discriminate|]. cbn [strip_char]. destruct (x =? c); [|discriminate]. intros E. injection E as <-. unfold len. cbn [length]. lia. Qed.

Lemma strip_plus_len src : len (strip_plus src) <= len src.
Proof. unfold strip_plus. destruct (strip_char 43 src) eqn:E; [now apply strip_char_len in E|lia]. Qed.

Lemma strip_sign_len src : len (snd (strip_sign src)) <= len src.
Proof.
  unfold strip_sign. destruct (strip_char 45 src) eqn:E; [apply strip_char_len in E; exact E|].
  apply strip_plus_len.
Qed.

Lemma free_bind {S T} (x : S) (k : S -> counted T) : cbind (free (Ok x)) k = k x.
Proof. rewrite cbind_eq. cbn. destruct (k x) as [[|n|n] r]; reflexivity. Qed.

Lemma no_sign_empty radix n r : c_from_str_radix_no_sign [] radix = (n, Ok r) -> n = 0.
Proof. unfold c_from_str_radix_no_sign. destruct (is_radix_valid radix); cbv; intros E; [injection E as E _; now symmetry|discriminate]. Qed.

Lemma below_total T n N k : below T k n -> 0 <= N -> 0 <= n -> N <= T * n -> N ^ 100 <= (k * n) ^ 100 * n ^ 47.
Proof.
  intros [T0 TB] N0 n0 L. apply Z.le_trans with ((T * n) ^ 100); [apply Z.pow_le_mono_l; split; [exact N0|exact L]|].
  rewrite (Z.pow_mul_l T n), (Z.pow_mul_l k n). replace (k ^ 100 * n ^ 100 * n ^ 47) with (k ^ 100 * n ^ 47 * n ^ 100) by ring.
  apply Z.mul_le_mono_nonneg_r; [apply Z.pow_nonneg; exact n0|exact TB].
Qed.

(** CHANGELOG.md:127: parsing takes O(n^1.47). *)
Theorem ubig_parse_steps src radix n r : len src < 2 ^ ubits -> c_ubig_from_str_radix src radix = (n, Ok r) ->
  ubig_from_str_radix src radix = Ok r /\ 0 <= n /\ n ^ 100 <= (4050 * len src) ^ 100 * len src ^ 47.
Proof.
  intros L E. split; [rewrite <- ubig_parse_erase, E; reflexivity|]. assert (N0 : 0 <= n) by (pose proof (ubig_parse_nn src radix) as X; rewrite E in X; exact X).
  split; [exact N0|]. unfold c_ubig_from_str_radix in E. destruct (check_radix_valid radix) as [u|p]; [|discriminate]. rewrite free_bind in E.
  pose proof (strip_plus_len src) as LP.
  destruct (Z.eqb_spec (len src) 0) as [Z0|Z0].
  - assert (EP : strip_plus src = []) by (destruct (strip_plus src); [reflexivity|unfold len in *; cbn [length] in LP; lia]). rewrite EP in E.
    destruct (c_from_str_radix_no_sign [] radix) as [n1 r1] eqn:E1. assert (E2 : r1 = Ok r /\ n1 = n) by (split; congruence). destruct E2 as [-> ->].
    apply no_sign_empty in E1. rewrite Z0, E1. vm_compute. discriminate.
  - destruct (no_sign_costs (strip_plus src) radix (len src) LP) as (T & TB & C); [unfold len in *; lia|].
    destruct (c_from_str_radix_no_sign (strip_plus src) radix) as [n1 r1] eqn:E1. assert (E2 : r1 = Ok r /\ n1 = n) by (split; congruence). destruct E2 as [-> ->].
    destruct (C r eq_refl) as [C1 _]. cbn [fst] in C1. apply (below_total T); [exact TB|exact N0|unfold len; lia|exact C1].
Qed.

Theorem ibig_parse_steps src radix n r : len src < 2 ^ ubits -> c_ibig_from_str_radix src radix = (n, Ok r) ->
  ibig_from_str_radix src radix = Ok r /\ 0 <= n /\ n ^ 100 <= (4050 * len src) ^ 100 * len src ^ 47.
Proof.
  intros L E. split; [rewrite <- ibig_parse_erase, E; reflexivity|]. assert (N0 : 0 <= n) by (pose proof (ibig_parse_nn src radix) as X; rewrite E in X; exact X).
  split; [exact N0|]. unfold c_ibig_from_str_radix in E. destruct (check_radix_valid radix) as [u|p]; [|discriminate]. rewrite free_bind in E.
  pose proof (strip_sign_len src) as LP. destruct (strip_sign src) as [s t]. cbn [snd] in LP. unfold cpbind in E.
  destruct (c_from_str_radix_no_sign t radix) as [n1 r1] eqn:E1.
  assert (E2 : n1 = n /\ exists r0, r1 = Ok r0).
  { destruct r1 as [[x|e]|p]; [| |discriminate]; (split; [|eauto]); cbn in E; injection E as E _; lia. }
  destruct E2 as [-> [r0 ->]]. clear E.
  destruct (Z.eqb_spec (len src) 0) as [Z0|Z0].
  - assert (t = []) as -> by (destruct t; [reflexivity|unfold len in *; cbn [length] in LP; lia]).
    apply no_sign_empty in E1. rewrite Z0, E1. vm_compute. discriminate.
  - destruct (no_sign_costs t radix (len src) LP) as (T & TB & C); [unfold len in *; lia|].
    rewrite E1 in C. destruct (C r0 eq_refl) as [C1 _]. cbn [fst] in C1. apply (below_total T); [exact TB|exact N0|unfold len; lia|exact C1].
Qed.

(** Radices 2, 4, 8, 16 and 32 take linear time. *)
Theorem parse_p2_steps src radix n r : is_pow2 radix = true -> c_ubig_from_str_radix src radix = (n, Ok r) -> n <= 10 * len src + 1.
Proof.
  intros P E. unfold c_ubig_from_str_radix in E. destruct (check_radix_valid radix) as [u|p]; [|discriminate]. rewrite free_bind in E.
  pose proof (strip_plus_len src) as LP. destruct (c_from_str_radix_no_sign (strip_plus src) radix) as [n1 r1] eqn:E1.
  assert (E2 : r1 = Ok r /\ n1 = n) by (split; congruence). destruct E2 as [-> ->]. clear E.
  assert (C : costs (c_from_str_radix_no_sign (strip_plus src) radix) (10 * len src + 1) (good (fun _ => True))).
  { unfold c_from_str_radix_no_sign. apply costs_bind_free. intros u0 _. destruct (strip_plus src) as [|x t] eqn:ET; [apply costs_ok; [unfold len; lia|exact I]|].
    rewrite <- ET in *. assert (T1 : 1 <= len (strip_plus src)) by (rewrite ET; unfold len; cbn [length]; lia). clear ET.
    apply costs_bind_call. intros s ES. assert (LS : len s <= len src) by (injection ES as <-; pose proof (strip_zeros_len (strip_plus src)); lia).
    rewrite P. eapply costs_weaken; [apply (p2_costs s radix (len src)); lia|unfold len in *; lia|auto]. }
  rewrite E1 in C. destruct (C r eq_refl) as [C1 _]. exact C1.
Qed.

End Bounds.
