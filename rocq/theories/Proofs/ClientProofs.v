(** Every run of the library is a run of the abstract machine. *)
From Coq Require Import Znumtheory Zpow_facts.
From Verif Require Import Model.Base Model.Words Model.Memory Model.FastDivide Model.Mul Model.Div Model.Buffer
  Model.UBig Model.IBig Model.Convert Model.AddOps Model.MulOps Model.ShiftOps Model.Bits Model.DivOps Model.PrimOps
  Model.Gcd Model.Pow Model.Radix Model.Parse Model.Fmt Model.Float Model.Serde Model.Modular Model.ModularFmt Model.Program Model.Client
  Spec.Val Spec.Num Spec.Prim Spec.Digits Spec.Text Spec.FmtText Spec.ModularText Spec.Float Spec.Ideal Spec.ParseResult Spec.Modular Spec.Abstract
  Proofs.Basics Proofs.BufferProofs Proofs.Bounds Proofs.DigitsProofs Proofs.ParseProofs Proofs.ParseApi Proofs.DivProofs Proofs.ModularProofs Proofs.ModularApi Proofs.FmtProofs Proofs.ModularFmtProofs Proofs.ProgramProofs
  Props.C18 Props.C22 Props.C24 Props.C28 Props.C30 Props.C31 Props.C32 Props.C33 Props.C34 Props.C35 Props.C36 Props.C46.

Section ClientProofs.
Context {A : Arch} {AOK : ArchOk A}.

(** The concrete outcome is one of the allowed ones. *)
Definition crel (m : res (world * seen)) (P : aoutcome -> Prop) : Prop :=
  match m with
  | Ok (w, x) => exists s, P (Ok (s, x)) /\ depicts w s
  | Panic p => P (Panic p)
  end.

Lemma depicts_u known w s d u v : depicts_with known w s -> ubig_ok u -> uval u = v -> depicts_with known (put_u w d u) (aset_u s d v).
Proof. intros (H & F & R & M) U <-. repeat split; auto; try apply (holds_setu _ _ d u H U). Qed.
Lemma depicts_i known w s d u v : depicts_with known w s -> ibig_ok u -> ival u = v -> depicts_with known (put_i w d u) (aset_i s d v).
Proof. intros (H & F & R & M) U <-. repeat split; auto; try apply (holds_seti _ _ d u H U). Qed.
Lemma depicts_m known w s d id n x a : depicts_with known w s -> element (known id) n x a -> ring_addr (known id) = id -> id < next s ->
  depicts_with known (put_m w d x) (aset_m s d (id, n, a)).
Proof.
  intros (H & F & R & M) E I L. repeat split; try apply H; auto. intros k. cbn [mods elem_at put_m aset_m].
  unfold setv. destruct (k =? d)%nat; [auto|apply M].
Qed.

Lemma rel_u known w s d r z x (P : aoutcome -> Prop) : depicts_with known w s -> urel r z -> P (store_u s d z x) ->
  crel (u <- r ;; Ok (put_u w d u, x)) P.
Proof.
  intros D R H. destruct z as [v|p]; cbn in R; [destruct R as (u & -> & U & E)|rewrite R; exact H].
  cbn. exists (aset_u s d v). split; [exact H|]. exists known. eapply depicts_u; eauto.
Qed.
Lemma rel_i known w s d r z x (P : aoutcome -> Prop) : depicts_with known w s -> irel r z -> P (store_i s d z x) ->
  crel (u <- r ;; Ok (put_i w d u, x)) P.
Proof.
  intros D R H. destruct z as [v|p]; cbn in R; [destruct R as (u & -> & U & E)|rewrite R; exact H].
  cbn. exists (aset_i s d v). split; [exact H|]. exists known. eapply depicts_i; eauto.
Qed.
Lemma rel_show {T} known w s (k : T -> seen) r x (P : aoutcome -> Prop) : depicts_with known w s -> r = Ok x -> P (Ok (s, k x)) -> crel (show w k r) P.
Proof. intros D -> H. cbn. exists s. split; [auto|exists known; auto]. Qed.
Lemma rel_m known w s d id n m v (P : aoutcome -> Prop) : depicts_with known w s -> yields_mod (known id) n m v -> ring_addr (known id) = id -> id < next s ->
  P (Ok (aset_m s d (id, n, v mod n), Base ONone)) -> crel (result_m w d m) P.
Proof.
  intros D (x & -> & E) I L H. cbn. exists (aset_m s d (id, n, v mod n)). split; [auto|]. exists known. eapply depicts_m; eauto.
Qed.
Lemma rel_panic p (P : aoutcome -> Prop) : P (Panic p) -> crel (Panic p) P.
Proof. auto. Qed.
Lemma rel_none known w s (P : aoutcome -> Prop) : depicts_with known w s -> P (Ok (s, Base ONone)) -> crel (Ok (w, Base ONone)) P.
Proof. intros D H. exists s. split; [auto|exists known; auto]. Qed.

(** ** Parsing *)
Lemma sans_zeros_spec t : exists k, t = repeat 48 k ++ sans_zeros t /\ ~ starts 48 (sans_zeros t).
Proof.
  induction t as [|c t (k & E & N)]; [exists 0%nat; split; [auto|]; intros (x & H); discriminate|].
  cbn [sans_zeros]. destruct (Z.eqb_spec c 48) as [->|NE].
  - exists (S k). split; [cbn; congruence|auto].
  - exists 0%nat. split; [auto|]. intros (x & H). congruence.
Qed.

Lemma no_sign_cases r t : 2 <= r <= 36 -> slice_size t -> let m := from_str_radix_no_sign t r in
  (exists v, numeral r t v /\ accepts m v) \/ (t = [] /\ m = Ok (PErr NoDigits)) \/
  (t <> [] /\ (forall v, ~ numeral r t v) /\ rejects r (sans_zeros t) m).
Proof.
  intros Hr Hs m. destruct t as [|c t]; [right; left; split; [auto|]; apply no_sign_empty; auto|].
  destruct (dig_dec r Hr (c :: t)) as [(ds & D)|D].
  - left. assert (numeral r (c :: t) (num r (rev ds))) as N by (apply dig_numeral; split; [discriminate|exists ds; auto]).
    exists (num r (rev ds)). split; [auto|]. apply unsigned_numeral; auto.
  - right; right. split; [discriminate|]. pose proof (bad_not_numeral _ _ D) as N. split; [exact N|].
    destruct (sans_zeros_spec (c :: t)) as (k & E & S). pose proof (unsigned_rejects r Hr k (sans_zeros (c :: t))) as R.
    rewrite <- E in R. apply R; auto. discriminate.
Qed.

Lemma reading_u known w s d r t (m : res (presult ubig)) : depicts_with known w s ->
  (exists v, numeral r t v /\ accepts m v) \/ (t = [] /\ m = Ok (PErr NoDigits)) \/
  (t <> [] /\ (forall v, ~ numeral r t v) /\ rejects r (sans_zeros t) m) ->
  crel (parsed_u w d m) (reading r t s (fun v => store_u s d (fits v) (Base (OBool true)))).
Proof.
  intros D [(v & N & [A1 A2])|[[-> ->]|(NE & N & [R1 R2])]].
  - unfold parsed_u. destruct (Z.lt_ge_cases v MAXV) as [L|G].
    + destruct (A1 L) as (u & -> & U & V). cbn. exists (aset_u s d v). split; [|exists known; eapply depicts_u; eauto].
      left. exists v. split; [auto|]. unfold fits. rewrite (proj2 (Z.ltb_lt _ _) L). reflexivity.
    + rewrite (A2 G). cbn. left. exists v. split; [auto|]. unfold fits. rewrite (proj2 (Z.ltb_ge _ _) G). reflexivity.
  - cbn. exists s. split; [right; left; auto|exists known; auto].
  - unfold parsed_u. destruct (Z.lt_ge_cases (r ^ (Z.of_nat (length (sans_zeros t)) - 1)) MAXV) as [L|G].
    + rewrite (R2 L). cbn. exists s. split; [right; right; auto|exists known; auto].
    + destruct R1 as [-> | ->]; cbn; [exists s; split; [right; right; auto|exists known; auto]|right; right; auto].
Qed.

Lemma reading_i known w s d r t (m : res (presult ubig)) sg : 2 <= r -> depicts_with known w s ->
  (exists v, numeral r t v /\ accepts m v) \/ (t = [] /\ m = Ok (PErr NoDigits)) \/
  (t <> [] /\ (forall v, ~ numeral r t v) /\ rejects r (sans_zeros t) m) ->
  crel (parsed_i w d (mag <-? m ;; Ok (POk (from_sign_magnitude sg mag))))
    (reading r t s (fun v => store_i s d (ifits (sign_val sg * v)) (Base (OBool true)))).
Proof.
  intros Hr D [(v & N & Ac)|[[-> ->]|(NE & N & R)]].
  - unfold parsed_i. pose proof (numeral_nonneg r t v Hr N) as Pv. destruct (signed_accepts m sg v Pv Ac) as [A1 A2].
    destruct (Z.lt_ge_cases (Z.abs (sign_val sg * v)) MAXV) as [L|G].
    + destruct (A1 L) as (u & -> & U & V). cbn. exists (aset_i s d (sign_val sg * v)). split; [|exists known; eapply depicts_i; eauto].
      left. exists v. split; [auto|]. unfold ifits. rewrite (proj2 (Z.ltb_lt _ _) L). reflexivity.
    + rewrite (A2 G). cbn. left. exists v. split; [auto|]. unfold ifits. rewrite (proj2 (Z.ltb_ge _ _) G). reflexivity.
  - cbn. exists s. split; [right; left; auto|exists known; auto].
  - unfold parsed_i. destruct (signed_rejects r (sans_zeros t) m sg R) as [R1 R2].
    destruct (Z.lt_ge_cases (r ^ (Z.of_nat (length (sans_zeros t)) - 1)) MAXV) as [L|G].
    + rewrite (R2 L). cbn. exists s. split; [right; right; auto|exists known; auto].
    + destruct R1 as [-> | ->]; cbn; [exists s; split; [right; right; auto|exists known; auto]|right; right; auto].
Qed.

Lemma strip_plus_after t : strip_plus t = after_plus t.
Proof. destruct t as [|c t]; [reflexivity|]. unfold strip_plus. cbn. destruct (c =? 43); reflexivity. Qed.
Lemma strip_sign_after t : after_sign t = (sign_val (fst (strip_sign t)), snd (strip_sign t)).
Proof.
  destruct t as [|c t]; [reflexivity|]. unfold strip_sign, strip_plus. cbn.
  destruct (Z.eqb_spec c 45) as [->|]; [reflexivity|]. destruct (c =? 43); reflexivity.
Qed.
Lemma strip_sign_size t : slice_size t -> slice_size (snd (strip_sign t)).
Proof.
  intros H. destruct (strip_sign_cases t) as [(b & -> & ->)|[(b & -> & ->)|(_ & _ & ->)]]; eauto using slice_size_cons.
Qed.

Lemma valid_radix_spec r : BoolSpec (2 <= r <= 36) (~ 2 <= r <= 36) (valid_radix r).
Proof. unfold valid_radix. destruct (Z.leb_spec 2 r), (Z.leb_spec r 36); constructor; lia. Qed.

(** ** Rings *)
Lemma is_ring_unique r n m : is_ring r n -> is_ring r m -> n = m.
Proof.
  intros H1 H2. destruct (C31_modulus A AOK r n H1) as (u & E & _ & <-). destruct (C31_modulus A AOK r m H2) as (v & F & _ & <-).
  congruence.
Qed.

Lemma shift_spec r n : is_ring (RingLarge r) n -> rl_shift r = (- ibitlen n) mod wbits.
Proof.
  intros H. destruct (is_ring_large r n H) as (Hn & Hs & V & N & _). pose proof (norm_div_bound _ _ N) as [L U].
  rewrite V in L, U. set (k := Z.of_nat (length (rl_modulus r))) in *.
  assert (Bn (length (rl_modulus r)) = 2 ^ (wbits * k)) as EB.
  { unfold Bn, B. rewrite <- Z.pow_mul_r; [reflexivity| |]; clear - AOK; pose proof wbits_ge; lia. }
  rewrite EB in L, U. pose proof wbits_ge as W.
  assert (0 < n) as Pn by (clear - AOK Hn; pose proof B_ge; lia).
  destruct (ProgramProofs.bitlen_bounds n Pn) as (B1 & B2 & B3). set (b := ibitlen n) in *.
  assert (0 <= wbits * k) as Pk by (clear - W; nia).
  assert (wbits * k < b + rl_shift r + 1) as L1.
  { apply (Z.pow_lt_mono_r_iff 2); [lia|lia|]. rewrite (Z.add_comm _ 1), Z.pow_add_r, Z.pow_add_r by lia.
    pose proof (Z.pow_pos_nonneg 2 (rl_shift r) ltac:(lia) ltac:(lia)). clear - L B3 H0. nia. }
  assert (b - 1 + rl_shift r < wbits * k) as L2.
  { apply (Z.pow_lt_mono_r_iff 2); [lia|lia|]. rewrite Z.pow_add_r by lia.
    pose proof (Z.pow_pos_nonneg 2 (rl_shift r) ltac:(lia) ltac:(lia)). clear - U B2 H0. nia. }
  apply Z.mod_unique with (- k); [left; lia|]. lia.
Qed.

Lemma enters_spec r n v : is_ring r n -> reflect (ring_room r v) (enters n v).
Proof.
  intros H. unfold enters. destruct r as [r|r].
  - pose proof (is_ring_small r n H) as (Hn & _). rewrite (proj2 (Z.ltb_lt n B)) by lia. left. exact I.
  - pose proof (is_ring_large r n H) as (Hn & _). rewrite (proj2 (Z.ltb_ge n B)) by lia. cbn [orb ring_room].
    rewrite (shift_spec r n H). apply Z.ltb_spec0.
Qed.

Lemma stored_ring r x a : stored r x a -> ring_of x = r.
Proof. destruct x, r; cbn; try contradiction; intros [-> _]; reflexivity. Qed.

Lemma nth_forall {T} (P : T -> Prop) l k f : Forall P l -> nth_error l k = Some f -> P f.
Proof. intros F E. rewrite Forall_forall in F. apply F. eapply nth_error_In; eauto. Qed.

Lemma nth_short {T} (l : list T) k n : length l = n -> nth_error l k = None -> (k <? n)%nat = false.
Proof. intros <- E. apply Nat.ltb_ge, nth_error_None, E. Qed.
Lemma nth_long {T} (l : list T) k n f : length l = n -> nth_error l k = Some f -> (k <? n)%nat = true.
Proof. intros <- E. apply Nat.ltb_lt, nth_error_Some. congruence. Qed.

(** A quotient, or giving up. *)
Lemma dividing_same known w s d id n x y m st : depicts_with known w s -> ring_addr (known id) = id -> id < next s ->
  quotient_result (known id) n m x y \/ gave_up n m \/ (Z.gcd y n = 1 /\ m = Panic OutOfMemory /\ st = true) ->
  crel (result_m w d m) (dividing s d id n x y n true true st).
Proof.
  intros D I L [[Q1 Q2]|[[-> G]|(G & -> & E)]]; [|do 4 right; auto|right; left; auto]. destruct (Z.eq_dec (Z.gcd y n) 1) as [E|E].
  - destruct (Q1 E) as (z & c & -> & El & Ec). cbn. exists (aset_m s d (id, n, c)). split; [|exists known; eapply depicts_m; eauto].
    left. split; [auto|]. split; [auto|]. split; [auto|]. exists c. destruct El as (_ & R & _). auto.
  - rewrite (Q2 E). do 3 right. left. auto.
Qed.
Lemma dividing_mul known w s d id n x y m : depicts_with known w s -> ring_addr (known id) = id -> id < next s ->
  quotient_or_stop (known id) n m x y -> crel (result_m w d m) (dividing s d id n x y n true (room_for_mul n) (negb (room_for_mul n))).
Proof.
  intros D I L [[-> Q]|[(-> & G & ->)|[(-> & G & ->)|[-> G]]]]; cbn [negb].
  - eapply dividing_same; eauto.
  - right; left; auto.
  - do 3 right; left; auto.
  - do 4 right; auto.
Qed.
Lemma rel_pow known w s d id n m z room : depicts_with known w s -> ring_addr (known id) = id -> id < next s ->
  yields_mod (known id) n m z \/ no_memory room m ->
  crel (result_m w d m) (fun o => o = Ok (aset_m s d (id, n, z mod n), Base ONone) \/ (o = Panic OutOfMemory /\ room = false)).
Proof.
  intros D I L [(x & -> & E)|[-> E]]; [|right; auto]. exists (aset_m s d (id, n, z mod n)). split; [left; reflexivity|]. exists known. eapply depicts_m; eauto.
Qed.

Lemma mbin_sim known w s op k m x y id n a id' n' b f : depicts_with known w s ->
  element (known id) n x a -> ring_addr (known id) = id -> id < next s ->
  element (known id') n' y b -> ring_addr (known id') = id' ->
  nth_error (mbin_fns op) k = Some f ->
  crel (result_m w m (f x y)) (mbin_outcome op s m (id, n, a) (id', n', b)).
Proof.
  intros D E I L E' I' Hf. destruct (Z.eq_dec id id') as [<-|NE].
  - assert (n' = n) as -> by (apply (is_ring_unique (known id)); [apply E'|apply E]).
    destruct op; cbn [mbin_fns] in Hf; unfold mbin_outcome; cbv beta iota zeta; rewrite Z.eqb_refl.
    + eapply rel_m; eauto. exact (nth_forall _ _ _ _ (C32_add A AOK _ _ _ _ _ _ E E') Hf).
    + eapply rel_m; eauto. exact (nth_forall _ _ _ _ (C32_sub A AOK _ _ _ _ _ _ E E') Hf).
    + pose proof (nth_forall _ _ _ _ (C32_mul A AOK _ _ _ _ _ _ E E') Hf) as Q. cbv beta in Q. unfold yields_mod_if in Q.
      destruct (room_for_mul n); cbn [andb negb]; [eapply rel_m; eauto|rewrite Q; reflexivity].
    + eapply dividing_mul; eauto. exact (nth_forall _ _ _ _ (C34_div_all A AOK _ _ _ _ _ _ E E') Hf).
  - assert (ring_addr (ring_of x) <> ring_addr (ring_of y)) as NA.
    { destruct E as (_ & _ & S1), E' as (_ & _ & S2). rewrite (stored_ring _ _ _ S1), (stored_ring _ _ _ S2). congruence. }
    destruct (C35_different_rings A AOK x y NA) as [F _]. apply Forall_app in F as [F1 F]. apply Forall_app in F as [F2 F3].
    destruct op; cbn [mbin_fns] in Hf; unfold mbin_outcome; cbv beta iota zeta; rewrite ?(proj2 (Z.eqb_neq _ _) NE).
    + rewrite (nth_forall _ _ _ _ F1 Hf). reflexivity.
    + rewrite (nth_forall _ _ _ _ F2 Hf). reflexivity.
    + rewrite (nth_forall _ _ _ _ F3 Hf). reflexivity.
    + pose proof (C35_div_different_rings A AOK _ _ _ _ _ _ _ _ E E') as F. rewrite I, I' in F.
      destruct (nth_forall _ _ _ _ (F NE) Hf) as [[G ->]|[[G ->]|[-> G]]]; cbn; unfold dividing; auto 12.
Qed.

Lemma ibig_fmt_spec be t x f : ibig_ok x -> width_ok f -> exists s, ibig_fmt be t x f = Ok s /\ trait_text t f (ival x) s.
Proof.
  intros Hu HW. destruct (C30_ibig A AOK be x f Hu HW) as (H1 & H2 & H3 & H4 & H5 & H6). unfold trait_text.
  destruct t; cbn [ibig_fmt trait_radix trait_upper trait_prefix]; apply shows_ok; assumption.
Qed.

(** ** One call *)
Lemma call_sim be c w s : depicts w s -> call_ok c -> crel (call_step be c w) (fun o => allowed c s o).
Proof.
  intros (known & D) C. pose proof D as ([HU HI] & F & R & M).
  destruct c; cbn [call_step allowed].
  - (* CBase *)
    cbn [call_ok] in C. pose proof (step_sim i (nums w) (num_of s) (conj HU HI) C) as S.
    destruct (istep i (num_of s)) as [[[st o]|p]|].
    + destruct S as (st' & -> & H'). cbn [bind]. eexists. split; [reflexivity|]. exists known.
      split; [exact H'|]. auto.
    + cbn in S. rewrite S. reflexivity.
    + destruct S as (d & n & -> & Hn & Hv). cbn [step]. rewrite (C18_clear_bit_wrong A AOK _ _ (proj1 (HU d)) Hn Hv). cbn.
      eexists. split; [reflexivity|]. exists known. pose proof wbits_ge as W. pose proof B_ge.
      apply (depicts_u known w s d (Small 0) 0 D); [cbn; lia|reflexivity].
  - (* CUParse *)
    destruct (valid_radix_spec radix) as [V|V]; [|rewrite (proj1 (from_str_radix_invalid radix _ V)); reflexivity].
    unfold ubig_from_str_radix. rewrite valid_ok, <- strip_plus_after by auto. cbn [bind].
    eapply reading_u; [eauto|]. apply no_sign_cases; [auto|]. apply slice_size_strip, C.
  - (* CIParse *)
    destruct (valid_radix_spec radix) as [V|V]; [|rewrite (proj2 (from_str_radix_invalid radix _ V)); reflexivity].
    unfold ibig_from_str_radix. rewrite valid_ok, strip_sign_after by auto. cbn [bind].
    pose proof (strip_sign_size s0 C) as Sz. destruct (strip_sign s0) as [sg t]. cbn [fst snd] in *.
    eapply reading_i; [lia|eauto|]. apply no_sign_cases; auto.
  - (* CUParsePrefix *)
    unfold ubig_from_str_with_radix_prefix. rewrite strip_plus_after.
    destruct (prefix_cases (after_plus s0)) as (r & t & P & ->).
    assert (slice_size t) as Sz by (eapply prefixed_size; [eauto|]; rewrite <- strip_plus_after; apply slice_size_strip, C).
    pose proof (prefixed_radix _ _ _ P) as Hr.
    pose proof (reading_u known w s d r t _ D (no_sign_cases r t Hr Sz)) as Rd.
    destruct (parsed_u w d (from_str_radix_no_sign t r)) as [[w' x]|p]; cbn in Rd |- *; [destruct Rd as (s' & Rd & D'); exists s'; split; [|auto]|]; exists r, t; auto.
  - (* CIParsePrefix *)
    unfold ibig_from_str_with_radix_prefix. rewrite strip_sign_after.
    pose proof (strip_sign_size s0 C) as Sz0. destruct (strip_sign s0) as [sg b]. cbn [fst snd] in *.
    destruct (prefix_cases b) as (r & t & P & ->).
    assert (slice_size t) as Sz by (eapply prefixed_size; eauto).
    pose proof (prefixed_radix _ _ _ P) as Hr.
    pose proof (reading_i known w s d r t _ sg (proj1 Hr) D (no_sign_cases r t Hr Sz)) as Rd.
    destruct (parsed_i w d _) as [[w' x]|p]; cbn in Rd |- *; [destruct Rd as (s' & Rd & D'); exists s'; split; [|auto]|]; exists r, t; auto.
  - (* CUText *)
    destruct (HU a) as [Ua <-]. destruct (ubig_fmt_spec be t _ f Ua C) as (x & E & T). eapply rel_show; cbn; eauto.
  - destruct (HI a) as [Ua <-]. destruct (ibig_fmt_spec be t _ f Ua C) as (x & E & T). eapply rel_show; cbn; eauto.
  - (* CUTextRadix *)
    destruct (HU a) as [Ua <-]. destruct (valid_radix_spec radix) as [V|V].
    + destruct (shows_ok _ _ _ _ _ _ (C30_ubig_in_radix A AOK be _ radix f Ua C V)) as (x & E & T). eapply rel_show; cbn; eauto.
    + unfold ubig_in_radix_text. rewrite (proj1 (C28_invalid_radix A _ (mkIBig Positive (Small 0)) radix V)). reflexivity.
  - destruct (HI a) as [Ua <-]. destruct (valid_radix_spec radix) as [V|V].
    + destruct (shows_ok _ _ _ _ _ _ (C30_ibig_in_radix A AOK be _ radix f Ua C V)) as (x & E & T). eapply rel_show; cbn; eauto.
    + unfold ibig_in_radix_text. rewrite (proj2 (C28_invalid_radix A (Small 0) _ radix V)). reflexivity.
  - (* CUFloat *)
    destruct (HU a) as [Ua <-]. destruct double.
    + destruct (C22_ubig_to_f64 A AOK _ Ua) as (bits & E & T & L). eapply rel_show; cbn; eauto. exists bits. split; [split; [exact T|]|reflexivity]. lia.
    + destruct (C22_ubig_to_f32 A AOK _ Ua) as (bits & E & T & L). eapply rel_show; cbn; eauto. exists bits. split; [split; [exact T|]|reflexivity]. lia.
  - destruct (HI a) as [Ua <-]. destruct double.
    + destruct (C22_ibig_to_f64 A AOK _ Ua) as (bits & E & T). eapply rel_show; cbn; eauto.
    + destruct (C22_ibig_to_f32 A AOK _ Ua) as (bits & E & T). eapply rel_show; cbn; eauto.
  - (* CUExtGcd *)
    destruct (HU a) as [Ua <-]. destruct (HU b) as [Ub <-].
    pose proof (C24_ubig_extended_gcd_all A AOK _ _ Ua Ub) as G.
    pose proof (uval_nonneg _ Ua) as Pa. pose proof (uval_nonneg _ Ub) as Pb.
    destruct (ubig_extended_gcd (us (nums w) a) (us (nums w) b)) as [[[vg vx] vy]|p].
    + destruct G as (Hg & Hx & Hy & NZ & Eg & Ez & Gx & Gy). cbn.
      exists (aset_i (aset_i (aset_u s g (uval vg)) x (ival vx)) y (ival vy)). split; [|exists known; repeat (apply depicts_i; auto); apply depicts_u; auto].
      right; left. split; [lia|]. exists (ival vx), (ival vy). split; [|rewrite Eg; reflexivity].
      split; [congruence|]. split; [apply ibig_ok_val, Hx|]. split; [apply ibig_ok_val, Hy|].
      rewrite !(Z.abs_eq (uval _)) by auto. auto.
    + destruct G as [(-> & E1 & E2)|(-> & L)]; cbn; [left; auto|right; right]. rewrite !Z.abs_eq by auto. auto.
  - destruct (HI a) as [Ua <-]. destruct (HI b) as [Ub <-].
    pose proof (C24_ibig_extended_gcd_all A AOK _ _ Ua Ub) as G.
    destruct (ibig_extended_gcd (is (nums w) a) (is (nums w) b)) as [[[vg vx] vy]|p].
    + destruct G as (Hg & Hx & Hy & NZ & Eg & Ez & Gx & Gy). cbn.
      exists (aset_i (aset_i (aset_i s g (ival vg)) x (ival vx)) y (ival vy)). split; [|exists known; repeat (apply depicts_i; auto)].
      right; left. split; [lia|]. exists (ival vx), (ival vy). split; [|rewrite Eg; reflexivity].
      split; [congruence|]. split; [apply ibig_ok_val, Hx|]. split; [apply ibig_ok_val, Hy|]. auto.
    + destruct G as [(-> & E1 & E2)|(-> & L)]; cbn; [left; auto|right; right]. auto.
  - (* CUSer *)
    destruct (HU a) as [Ua <-]. destruct (C36_ubig_serialize A AOK _ Ua) as (es & -> & E1 & E2 & E3). cbn.
    exists s. split; [|exists known; auto]. exists es. split; [|auto]. repeat split; auto.
  - destruct (HI a) as [Ua <-]. destruct (C36_ibig_serialize A AOK _ Ua) as (es & -> & E1 & E2 & E3). cbn.
    exists s. split; [|exists known; auto]. exists es. split; [|auto]. repeat split; auto.
  - (* CUDe *)
    destruct C as [C1 C2]. destruct (C36_ubig_deserialize_padded_partial A AOK es hint C1 C2) as [H1 H2].
    eapply rel_u; [eauto| |reflexivity]. unfold de_outcome. destruct (Z.leb_spec (64 * Z.of_nat (length es)) (wbits * (MAX_LEN + 4))) as [L|G].
    + apply rel_yields; auto.
    + apply H2; auto.
  - destruct C as [C1 C2]. destruct (C36_ibig_deserialize_padded_partial A AOK es hint s0 C1 C2) as [H1 H2].
    eapply rel_i; [eauto| |reflexivity]. unfold de_outcome. destruct (Z.leb_spec (64 * Z.of_nat (length es)) (wbits * (MAX_LEN + 4))) as [L|G].
    + apply rel_iyields. specialize (H1 L). destruct s0; cbn [sign_val] in H1; [replace (num _ es) with (1 * num (2 ^ 64) es) by ring|replace (- num _ es) with (-1 * num (2 ^ 64) es) by ring]; auto.
    + apply H2; auto.
  - (* CRing *)
    destruct (HU a) as [Ua <-]. destruct (Z.eqb_spec (uval (us (nums w) a)) 0) as [E|E].
    + rewrite (C31_ring_new_zero A AOK _ _ Ua E). reflexivity.
    + destruct (C31_ring_new A AOK (fresh w) _ Ua E) as (x & -> & Rx & Ax). cbn. eexists. split; [reflexivity|].
      exists (fun id => if id =? next s then x else known id).
      split; [split; auto|]. split; [cbn; lia|]. cbn [rings mods nums ring_at elem_at next fresh num_of]. rewrite F in Ax. split.
      * intros k. unfold setv. destruct (k =? r)%nat.
        { rewrite Z.eqb_refl. repeat split; auto; lia. }
        specialize (R k). destruct (rings w k) as [y|], (ring_at s k) as [[id n]|]; auto. destruct R as (R1 & R2 & R3 & R4).
        rewrite (proj2 (Z.eqb_neq id (next s))) by lia. repeat split; auto; lia.
      * intros k. specialize (M k). destruct (mods w k) as [y|], (elem_at s k) as [[[id n] v]|]; auto. destruct M as (M1 & M2 & M3).
        rewrite (proj2 (Z.eqb_neq id (next s))) by lia. repeat split; auto; try apply M1; lia.
  - (* CRingModulus *)
    specialize (R r). destruct (rings w r) as [x|], (ring_at s r) as [[id n]|]; try contradiction; cbn [on given]; [|eapply rel_none; eauto].
    destruct R as (R1 & _). eapply rel_u; [eauto|apply rel_returns, (C31_modulus A AOK x n R1)|reflexivity].
  - (* CRingEq *)
    pose proof (R r) as R'. specialize (R s0). destruct (rings w r) as [x|], (ring_at s r) as [[id n]|]; try contradiction; cbn [on given]; [|eapply rel_none; eauto].
    destruct (rings w s0) as [y|], (ring_at s s0) as [[id' n']|]; try contradiction; cbn [on given]; [|eapply rel_none; eauto].
    destruct R as (_ & <- & _), R' as (_ & <- & _). exists s. split; [reflexivity|exists known; auto].
  - (* CRingText *)
    specialize (R r). destruct (rings w r) as [x|], (ring_at s r) as [[id n]|]; try contradiction; cbn [on given]; [|eapply rel_none; eauto].
    destruct R as (R1 & _). destruct (C46_ring_partial A AOK be None t x n f R1 C (or_intror eq_refl)) as (sn & T & E).
    eapply rel_show; eauto. cbn. eexists. split; [|reflexivity]. exists sn. auto.
  - (* CMFromU *)
    specialize (R r). destruct (rings w r) as [x|], (ring_at s r) as [[id n]|]; try contradiction; cbn [on given]; [|eapply rel_none; eauto].
    destruct R as (R1 & R2 & R3 & R4). destruct (HU a) as [Ua <-]. destruct (C31_from_ubig_partial A AOK x n _ R1 Ua) as [H1 H2].
    destruct (enters_spec x n (uval (us (nums w) a)) R1) as [T|T].
    + destruct (H1 T) as [Y1 Y2]. rewrite <- R3 in Y1, Y2. destruct ref; (eapply rel_m; [eauto| | | |]); rewrite <- ?R3 in *; eauto.
    + destruct (H2 T) as [Y1 Y2]. destruct ref; rewrite ?Y1, ?Y2; reflexivity.
  - specialize (R r). destruct (rings w r) as [x|], (ring_at s r) as [[id n]|]; try contradiction; cbn [on given]; [|eapply rel_none; eauto].
    destruct R as (R1 & R2 & R3 & R4). destruct (HI a) as [Ua <-]. destruct (C31_from_ibig_partial A AOK x n _ R1 Ua) as [H1 H2].
    destruct (enters_spec x n (Z.abs (ival (is (nums w) a))) R1) as [T|T].
    + destruct (H1 T) as [Y1 Y2]. rewrite <- R3 in Y1, Y2. destruct ref; (eapply rel_m; [eauto| | | |]); rewrite <- ?R3 in *; eauto.
    + destruct (H2 T) as [Y1 Y2]. destruct ref; rewrite ?Y1, ?Y2; reflexivity.
  - (* CMFromPrim *)
    specialize (R r). destruct (rings w r) as [y|], (ring_at s r) as [[id n]|]; try contradiction; cbn [on given]; [|eapply rel_none; eauto].
    destruct R as (R1 & R2 & R3 & R4). destruct C as [C1 C2]. subst y. eapply rel_m; eauto.
    destruct sg; [apply C31_from_signed|apply C31_from_unsigned]; auto.
  - specialize (R r). destruct (rings w r) as [y|], (ring_at s r) as [[id n]|]; try contradiction; cbn [on given]; [|eapply rel_none; eauto].
    destruct R as (R1 & R2 & R3 & R4). subst y. eapply rel_m; eauto. apply C31_from_bool; auto.
  - (* CM2 *)
    pose proof (M x) as Mx. pose proof (M y) as My.
    destruct (mods w x) as [vx|], (elem_at s x) as [[[id n] v]|]; try contradiction; cbn [on given]; [|eapply rel_none; eauto].
    destruct (mods w y) as [vy|], (elem_at s y) as [[[id' n'] v']|]; try contradiction; cbn [on given]; [|eapply rel_none; eauto].
    destruct Mx as (X1 & X2 & X3), My as (Y1 & Y2 & Y3).
    assert (length (mbin_fns op) = 6%nat) as Ln by (destruct op; reflexivity).
    destruct (nth_error (mbin_fns op) k) as [g|] eqn:Eg; cbn [on].
    + rewrite (nth_long _ _ _ _ Ln Eg). eapply mbin_sim; eauto.
    + rewrite (nth_short _ _ _ Ln Eg). eapply rel_none; eauto.
  - (* CMNeg *)
    specialize (M x). destruct (mods w x) as [vx|], (elem_at s x) as [[[id n] v]|]; try contradiction; cbn [on given]; [|eapply rel_none; eauto].
    destruct M as (X1 & X2 & X3). destruct (C32_neg A AOK _ _ _ _ X1) as [N1 N2].
    destruct k as [|[|k]]; cbn [nth_error on Nat.ltb Nat.leb]; [eapply rel_m; eauto|eapply rel_m; eauto|].
    destruct k; cbn [nth_error on]; eapply rel_none; eauto.
  - (* CMPow *)
    specialize (M x). destruct (mods w x) as [vx|], (elem_at s x) as [[[id n] v]|]; try contradiction; cbn [on given]; [|eapply rel_none; eauto].
    destruct M as (X1 & X2 & X3). destruct (HU a) as [Ua <-]. eapply rel_pow; eauto. apply C33_pow; auto.
  - (* CMPowSigned *)
    specialize (M x). destruct (mods w x) as [vx|], (elem_at s x) as [[[id n] v]|]; try contradiction; cbn [on given]; [|eapply rel_none; eauto].
    destruct M as (X1 & X2 & X3). destruct (HI a) as [Ua <-]. destruct (C33_pow_signed_all A AOK _ _ _ _ _ X1 Ua) as [H1 H2].
    destruct (Z.leb_spec 0 (ival (is (nums w) a))) as [L|G]; [eapply rel_pow; eauto|eapply dividing_same; eauto].
    destruct (H2 G) as [Q|[Q|(Q1 & Q2 & Q3)]]; [auto|auto|]. right. right. rewrite Q3. split; [|auto].
    apply Zgcd_1_rel_prime, rel_prime_sym, rel_prime_Zpower_r; [lia|]. apply rel_prime_sym, Zgcd_1_rel_prime, Q1.
  - (* CMInverse *)
    specialize (M x). destruct (mods w x) as [vx|], (elem_at s x) as [[[id n] v]|]; try contradiction; cbn [on given]; [|eapply rel_none; eauto].
    destruct M as (X1 & X2 & X3). destruct (C34_inverse_all A AOK _ _ _ _ X1) as [[H1 H2]|[-> G]]; [|right; right; auto].
    destruct (Z.eq_dec (Z.gcd v n) 1) as [E|E].
    + destruct (H1 E) as (y & b & -> & Ey & Eb). cbn. exists (aset_m s m (id, n, b)). split; [|exists known; eapply depicts_m; eauto].
      left. split; [auto|]. exists b. destruct Ey as (_ & Rb & _). auto.
    + rewrite (H2 E). cbn. exists s. split; [right; left; auto|exists known; auto].
  - (* CMResidue *)
    specialize (M x). destruct (mods w x) as [vx|], (elem_at s x) as [[[id n] v]|]; try contradiction; cbn [on given]; [|eapply rel_none; eauto].
    destruct M as (X1 & X2 & X3). eapply rel_u; [eauto|apply rel_returns, (C31_residue A AOK _ _ _ _ X1)|reflexivity].
  - (* CMEq *)
    pose proof (M x) as Mx. pose proof (M y) as My.
    destruct (mods w x) as [vx|], (elem_at s x) as [[[id n] v]|]; try contradiction; cbn [on given]; [|eapply rel_none; eauto].
    destruct (mods w y) as [vy|], (elem_at s y) as [[[id' n'] v']|]; try contradiction; cbn [on given]; [|eapply rel_none; eauto].
    destruct Mx as (X1 & X2 & X3), My as (Y1 & Y2 & Y3). destruct (Z.eqb_spec id id') as [<-|NE].
    + assert (n' = n) as -> by (apply (is_ring_unique (known id)); [apply Y1|apply X1]).
      eapply rel_show; [eauto|apply (C32_eq A AOK _ _ _ _ _ _ X1 Y1)|reflexivity].
    + destruct (C35_different_rings A AOK vx vy) as [_ ->]; [|reflexivity].
      destruct X1 as (_ & _ & S1), Y1 as (_ & _ & S2). rewrite (stored_ring _ _ _ S1), (stored_ring _ _ _ S2). congruence.
  - (* CMClone *)
    specialize (M x). destruct (mods w x) as [vx|], (elem_at s x) as [[[id n] v]|]; try contradiction; cbn [on given]; [|eapply rel_none; eauto].
    destruct M as (X1 & X2 & X3). cbn. eexists. split; [reflexivity|]. exists known. apply depicts_m; auto.
    apply (C32_clone A _ _ vx _ _ X1).
  - (* CMCloneFrom *)
    pose proof (M x) as Mx. pose proof (M m) as My.
    destruct (mods w x) as [vx|], (elem_at s x) as [[[id n] v]|]; try contradiction; cbn [on given]; [|eapply rel_none; eauto].
    destruct (mods w m) as [vy|], (elem_at s m) as [[[id' n'] v']|]; try contradiction; cbn [on given]; [|eapply rel_none; eauto].
    destruct Mx as (X1 & X2 & X3). cbn. eexists. split; [reflexivity|]. exists known. apply depicts_m; auto.
    apply (C32_clone A _ _ vy _ _ X1).
  - (* CMText *)
    specialize (M x). destruct (mods w x) as [vx|], (elem_at s x) as [[[id n] v]|]; try contradiction; cbn [on given]; [|eapply rel_none; eauto].
    destruct M as (X1 & X2 & X3). destruct (C46_element_partial A AOK be None t _ _ _ _ f X1 C (or_intror eq_refl)) as (sa & sn & T1 & T2 & E).
    eapply rel_show; eauto. cbn. eexists. split; [|reflexivity]. exists sa, sn. auto.
Qed.

(** ** Runs *)
Theorem call_run_sim be n c : app_ok c -> forall tr w s, depicts w s ->
  match call_run be n c tr w with
  | Ok (tr', w') => exists s', allowed_run n c tr s (Ok (tr', s')) /\ depicts w' s'
  | Panic p => allowed_run n c tr s (Panic p)
  end.
Proof.
  intros C. induction n as [|n IH]; intros tr w s D; cbn [call_run allowed_run]; [exists s; auto|].
  destruct (c tr) as [c1|] eqn:E; [|exists s; auto].
  pose proof (call_sim be c1 w s D (C tr c1 E)) as S. destruct (call_step be c1 w) as [[w' x]|p]; cbn [bind]; cbn in S.
  - destruct S as (s' & Al & D'). specialize (IH (x :: tr) w' s' D').
    destruct (call_run be n c (x :: tr) w') as [[tr'' w'']|p]; [destruct IH as (s'' & IH & D''); exists s''; split; [|auto]|]; right; exists s', x; auto.
  - left. exists p. auto.
Qed.

Lemma empty_depicts : depicts empty aempty.
Proof.
  exists (fun _ => RingSmall (mkRingSmall 0 0 0 (mkFDN 0 0))). split; [|split; [|split]]; try reflexivity; try (intros; exact I).
  destruct start_ok as [S1 S2]. split; intros n; (split; [auto|reflexivity]).
Qed.

(** ** Panics *)
Definition mild {T} (r : res T) : Prop := match r with Ok _ => True | Panic p => documented p end.

Lemma mild_form {X Y} (l : list X) k (s : Y) (r : res (Y * obs)) : mild r -> mild (with_form l k s (fun _ => r)).
Proof. intros H. unfold with_form. destruct (nth_error l k); [exact H|exact I]. Qed.
Lemma mild_putu s d r : mild r -> mild (iputu s d r).
Proof. destruct r; cbn; auto. Qed.
Lemma mild_puti s d r : mild r -> mild (iputi s d r).
Proof. destruct r; cbn; auto. Qed.
Lemma mild_over {T} d (r : res T) : mild r -> mild (over d r).
Proof. unfold over. destruct (d =? 0); [intros _; right; right; left; reflexivity|auto]. Qed.
Lemma mild_fits z : mild (fits z).
Proof. unfold fits. destruct (_ <? _); [exact I|left; reflexivity]. Qed.
Lemma mild_ifits z : mild (ifits z).
Proof. unfold ifits. destruct (_ <? _); [exact I|left; reflexivity]. Qed.
Lemma mild_natural z : mild (natural z).
Proof. unfold natural. destruct (_ <? _); [right; left; reflexivity|exact I]. Qed.
Lemma mild_fits_nat z : mild (fits_nat z).
Proof. unfold fits_nat. destruct (_ <? _); [right; left; reflexivity|apply mild_fits]. Qed.
Lemma mild_fits_unsigned z : mild (fits_unsigned z).
Proof. unfold fits_unsigned. destruct (_ <? _); [destruct (_ <? _); [right; left|left]; reflexivity|apply mild_fits]. Qed.
Lemma mild_gcd {T} (c : bool) (x : T) : mild (if c then Panic GcdOfZeros else Ok x).
Proof. destruct c; [do 3 right; left; reflexivity|exact I]. Qed.
Lemma mild_bind {T U} (r : res T) (k : T -> res U) : mild r -> (forall x, mild (k x)) -> mild (bind r k).
Proof. destruct r; cbn; auto. Qed.

Lemma istep_mild i s : match istep i s with Some r => mild r | None => True end.
Proof.
  Ltac m := first [exact I | apply mild_fits | apply mild_ifits | apply mild_natural | apply mild_fits_nat | apply mild_fits_unsigned | apply mild_gcd
    | (apply mild_form; m) | (apply mild_putu; m) | (apply mild_puti; m) | (apply mild_over; m) | (apply mild_bind; [m|intros; m])].
  destruct i; cbn [istep]; try (destruct (_ && _)); try m.
  - destruct op; m.
  - destruct op; m.
  - unfold itryu. destruct (0 <=? _); exact I.
  - unfold bytes_ideal. destruct (_ <=? _); [m|left; reflexivity].
  - unfold itryu. destruct (0 <=? _); exact I.
  - unfold itryu. destruct (0 <=? _); exact I.
  - destruct op, sg; m.
  - destruct op; m.
  - destruct op; m.
  - destruct op; m.
  - destruct op; m.
  - destruct op; m.
Qed.

Lemma mild_ok {T} p : mild (@Panic T p) -> documented p.
Proof. auto. Qed.

Lemma reading_mild r t s good p : (forall v, mild (good v)) -> reading r t s good (Panic p) -> documented p.
Proof.
  intros G [(v & _ & E)|[[_ E]|(_ & _ & [E|[E _]])]]; try discriminate; [|injection E as ->; left; reflexivity].
  specialize (G v). rewrite <- E in G. exact G.
Qed.
Lemma store_u_mild s d r x : mild r -> mild (store_u s d r x).
Proof. destruct r; cbn; auto. Qed.
Lemma store_i_mild s d r x : mild r -> mild (store_i s d r x).
Proof. destruct r; cbn; auto. Qed.
Lemma dividing_mild s d id n x y m b dn st p : dividing s d id n x y m b dn st (Panic p) -> documented p.
Proof.
  intros [(_ & _ & _ & c & _ & _ & E)|[(_ & _ & _ & E)|[(_ & _ & E)|[(_ & E)|(E & _)]]]]; try discriminate; injection E as ->; unfold documented; auto 10.
Qed.
Lemma ext_mild a b good p : (forall x y, mild (good x y)) -> ext_outcome a b good (Panic p) -> documented p.
Proof.
  intros G [(_ & _ & E)|[(_ & x & y & _ & E)|(E & _)]]; [| |injection E as ->; left; reflexivity].
  - injection E as ->. unfold documented; auto 10.
  - specialize (G x y). rewrite <- E in G. exact G.
Qed.
Lemma de_mild es r : mild r -> mild (de_outcome es r).
Proof. unfold de_outcome. destruct (_ <=? _); [auto|left; reflexivity]. Qed.

Lemma allowed_mild c s p : allowed c s (Panic p) -> documented p.
Proof.
  assert (forall r : aoutcome, mild r -> Panic p = r -> documented p) as K by (intros r Hr E; rewrite <- E in Hr; exact Hr).
  assert (forall (b : bool) (x : aworld * seen) q, documented q -> mild (if b then Ok x else Panic q)) as KI by (intros [] x q Hq; [exact I|exact Hq]).
  assert (forall (x : aworld * seen) (Q : Prop), Panic p = Ok x \/ (@Panic (aworld * seen) p = Panic OutOfMemory /\ Q) -> documented p) as KP
    by (intros x Q [E|[E _]]; [discriminate|injection E as ->; unfold documented; auto 10]).
  destruct c; cbn [allowed].
  - pose proof (istep_mild i (num_of s)) as H. destruct (istep i (num_of s)) as [r|].
    + apply K. destruct r as [[st x]|q]; cbn; auto.
    + destruct i; try contradiction. discriminate.
  - destruct (valid_radix radix); [|apply K; unfold mild, documented; auto 10].
    apply reading_mild. intros v. apply store_u_mild, mild_fits.
  - destruct (valid_radix radix); [|apply K; unfold mild, documented; auto 10].
    destruct (after_sign s0) as [sg t]. apply reading_mild. intros v. apply store_i_mild, mild_ifits.
  - intros (r & b & _ & H). revert H. apply reading_mild. intros v. apply store_u_mild, mild_fits.
  - destruct (after_sign s0) as [sg t]. intros (r & b & _ & H). revert H. apply reading_mild. intros v. apply store_i_mild, mild_ifits.
  - intros (x & _ & E); discriminate.
  - intros (x & _ & E); discriminate.
  - destruct (valid_radix radix); [intros (x & _ & E); discriminate|apply K; unfold mild, documented; auto 10].
  - destruct (valid_radix radix); [intros (x & _ & E); discriminate|apply K; unfold mild, documented; auto 10].
  - intros (x & _ & E); discriminate.
  - intros (x & _ & E); discriminate.
  - apply ext_mild. intros. exact I.
  - apply ext_mild. intros. exact I.
  - intros (x & _ & E); discriminate.
  - intros (x & _ & E); discriminate.
  - apply K, store_u_mild, de_mild, mild_fits.
  - apply K, store_i_mild, de_mild, mild_ifits.
  - apply K. destruct (_ =? 0); [unfold mild, documented; auto 10|exact I].
  - unfold given. destruct (ring_at s r) as [[id n]|]; discriminate.
  - unfold given. destruct (ring_at s r) as [[id n]|]; [|discriminate]. destruct (ring_at s s0) as [[id' n']|]; discriminate.
  - unfold given. destruct (ring_at s r) as [[id n]|]; [|discriminate]. intros (x & _ & E); discriminate.
  - unfold given. destruct (ring_at s r) as [[id n]|]; [|discriminate]. apply K, KI. left. reflexivity.
  - unfold given. destruct (ring_at s r) as [[id n]|]; [|discriminate]. apply K, KI. left. reflexivity.
  - unfold given. destruct (ring_at s r) as [[id n]|]; discriminate.
  - unfold given. destruct (ring_at s r) as [[id n]|]; discriminate.
  - unfold given. destruct (elem_at s x) as [[[id n] a]|]; [|discriminate]. destruct (elem_at s y) as [[[id' n'] b]|]; [|discriminate].
    destruct (k <? 6)%nat; [|discriminate]. unfold mbin_outcome.
    destruct op; try (apply K, KI; unfold documented; auto 10); [|apply dividing_mild].
    destruct (_ && _); apply K; [|apply KI]; unfold mild, documented; auto 10.
  - unfold given. destruct (elem_at s x) as [[[id n] a]|]; discriminate.
  - unfold given. destruct (elem_at s x) as [[[id n] b]|]; [|discriminate]. apply KP.
  - unfold given. destruct (elem_at s x) as [[[id n] b]|]; [|discriminate]. destruct (0 <=? _); [apply KP|]. apply dividing_mild.
  - unfold given. destruct (elem_at s x) as [[[id n] b]|]; [|discriminate].
    intros [(_ & c & _ & _ & E)|[[_ E]|[E _]]]; try discriminate. injection E as ->. left. reflexivity.
  - unfold given. destruct (elem_at s x) as [[[id n] a]|]; discriminate.
  - unfold given. destruct (elem_at s x) as [[[id n] a]|]; [|discriminate]. destruct (elem_at s y) as [[[id' n'] b]|]; [|discriminate].
    apply K, KI. unfold documented; auto 10.
  - unfold given. destruct (elem_at s x) as [[[id n] a]|]; discriminate.
  - unfold given. destruct (elem_at s x) as [[[id n] a]|]; [|discriminate]. destruct (elem_at s m) as [[[id' n'] b]|]; discriminate.
  - unfold given. destruct (elem_at s x) as [[[id n] a]|]; [|discriminate]. intros (y & _ & E); discriminate.
Qed.

Theorem allowed_run_mild n c : forall tr s p, allowed_run n c tr s (Panic p) -> documented p.
Proof.
  induction n as [|n IH]; intros tr s p; cbn [allowed_run]; [discriminate|].
  destruct (c tr) as [c1|]; [|discriminate]. intros [(q & Al & E)|(s' & x & _ & R)]; [|eauto].
  injection E as ->. eapply allowed_mild; eauto.
Qed.

Theorem call_run_panics be n c tr w p : app_ok c -> (exists s, depicts w s) -> call_run be n c tr w = Panic p -> documented p.
Proof.
  intros C (s & D) E. pose proof (call_run_sim be n c C tr w s D) as H. rewrite E in H. eapply allowed_run_mild; eauto.
Qed.

(** ** The variables that a program leaves *)
Lemma call_run_ok be n c tr tr' w : app_ok c -> call_run be n c tr empty = Ok (tr', w) -> well_formed (nums w).
Proof.
  intros C E. pose proof (call_run_sim be n c C tr empty aempty empty_depicts) as H. rewrite E in H.
  destruct H as (s' & _ & known & (HU & HI) & _). split; intros k; [apply HU|apply HI].
Qed.

Theorem call_run_canonical be n c tr tr' w : app_ok c -> call_run be n c tr empty = Ok (tr', w) ->
  (forall k, canonical (us (nums w) k)) /\
  (forall k, canonical (imag (is (nums w) k)) /\ (isign (is (nums w) k) = Negative -> uval (imag (is (nums w) k)) <> 0)).
Proof.
  intros C E. destruct (call_run_ok be n c tr tr' w C E) as [HU HI].
  assert (forall u, ubig_ok u -> canonical u) as K.
  { intros [x|b]; cbn; [auto|]. intros (W & L & T & _). auto. }
  split; intros k; [apply K, HU|]. destruct (HI k) as [H1 H2]. split; [apply K, H1|]. intros N Z. rewrite (H2 Z) in N. discriminate.
Qed.

Theorem call_run_compact be n c tr tr' w : app_ok c -> call_run be n c tr empty = Ok (tr', w) ->
  (forall k, compact (us (nums w) k)) /\ (forall k, compact (imag (is (nums w) k))).
Proof.
  intros C E. destruct (call_run_ok be n c tr tr' w C E) as [HU HI].
  assert (forall u, ubig_ok u -> compact u) as K.
  { intros [x|b]; cbn [ubig_ok compact]; [auto|]. intros (_ & _ & _ & L & H). unfold max_cap in H. lia. }
  split; intros k; apply K; [apply HU|apply HI].
Qed.

Lemma compact_exact u : ubig_ok u -> (forall n, 0 <= n -> vec_cap n = n) -> compact u -> within_quarter u.
Proof.
  destruct u as [w|b]; [auto|]. cbn [ubig_ok compact within_quarter]. intros (_ & L2 & _) V (L & C1 & C2).
  assert (2 <= len (words b)) by (unfold len; lia). pose proof MAX_LEN_ge.
  assert (0 <= len (words b) / 8 <= len (words b) / 4) by (split; [apply Z.div_pos|apply Z.div_le_compat_l]; lia).
  rewrite V in C2 by lia. lia.
Qed.

Theorem call_run_exact be n c tr tr' w : (forall n, 0 <= n -> vec_cap n = n) -> app_ok c -> call_run be n c tr empty = Ok (tr', w) ->
  (forall k, within_quarter (us (nums w) k)) /\ (forall k, within_quarter (imag (is (nums w) k))).
Proof.
  intros V C E. destruct (call_run_ok be n c tr tr' w C E) as [HU HI]. destruct (call_run_compact be n c tr tr' w C E) as [CU CI].
  split; intros k; apply compact_exact; auto; apply HI.
Qed.

Theorem call_run_no_internal be n c tr : app_ok c -> call_run be n c tr empty <> Panic Internal.
Proof.
  intros C E. pose proof (call_run_panics be n c tr empty _ C (ex_intro _ aempty empty_depicts) E) as H. unfold documented in H. intuition discriminate.
Qed.

(** ** Calls with one outcome *)
Lemma numeral_unique r t v w : numeral r t v -> numeral r t w -> v = w.
Proof.
  intros N1 N2. apply dig_numeral in N1 as (_ & x & D1 & ->). apply dig_numeral in N2 as (_ & y & D2 & ->).
  rewrite (dig_inj r t x y D1 D2). reflexivity.
Qed.

Lemma reading_unique r t s good o1 o2 : tame r t -> reading r t s good o1 -> reading r t s good o2 -> o1 = o2.
Proof.
  intros P.
  assert (forall o, reading r t s good o -> (exists v, numeral r t v /\ o = good v) \/ (t = [] /\ o = Ok (s, Error NoDigits)) \/
    (t <> [] /\ (forall v, ~ numeral r t v) /\ o = Ok (s, Error InvalidDigit))) as K.
  { intros o [H|[H|(NE & N & [H|[H L]])]]; auto. destruct P as [(v & Nv)|P]; [destruct (N v Nv)|lia]. }
  intros H1 H2. apply K in H1, H2.
  destruct H1 as [(v & Nv & ->)|[[-> ->]|(NE & N & ->)]], H2 as [(w & Nw & ->)|[[E ->]|(NE' & N' & ->)]]; auto.
  - rewrite (numeral_unique r t v w Nv Nw). reflexivity.
  - subst t. destruct Nv as [H _]. congruence.
  - destruct (N' v Nv).
  - destruct Nw as [H _]. congruence.
  - congruence.
  - destruct (N w Nw).
  - congruence.
Qed.

Lemma shows_unique f radix up pre v x y : 2 <= radix -> shows (Ok x) f radix up pre v -> shows (Ok y) f radix up pre v -> x = y.
Proof.
  intros Hr (ds & C1 & [= E1]) (es & C2 & [= E2]). rewrite (FmtRound.canonical_unique radix _ ds es Hr C1 C2) in E1. congruence.
Qed.
Lemma trait_text_unique t f v x y : trait_text t f v x -> trait_text t f v y -> x = y.
Proof. apply shows_unique. destruct t; cbn; lia. Qed.

Lemma float_unique double neg n b1 b2 : 0 <= n -> float_of double neg n b1 -> float_of double neg n b2 -> b1 = b2.
Proof. intros Hn. destruct (C22_bits_unique neg n b1 b2 Hn) as [H1 H2]. destruct double; intros [? ?] [? ?]; auto. Qed.

Lemma serial_unique n x y : serial_of n x -> serial_of n y -> x = y.
Proof.
  intros (D1 & L1 & V1) (D2 & L2 & V2).
  assert (forall x, digits_ok (2 ^ 64) x -> x = [] \/ last x 0 <> 0 -> x <> [] ->
    (2 ^ 64) ^ (Z.of_nat (length x) - 1) <= num (2 ^ 64) x < (2 ^ 64) ^ Z.of_nat (length x)) as K.
  { intros z D L NE. destruct L as [E|L]; [congruence|]. pose proof (num_top (2 ^ 64) z ltac:(lia) D L) as T.
    pose proof (num_bound (2 ^ 64) z ltac:(lia) D). replace (Z.of_nat (length z) - 1) with (Z.of_nat (length z - 1)); [lia|].
    destruct z; [congruence|cbn [length]; lia]. }
  apply (num_inj (2 ^ 64)); auto; [lia| |congruence].
  assert (forall x y, digits_ok (2 ^ 64) x -> digits_ok (2 ^ 64) y -> y = [] \/ last y 0 <> 0 -> num (2 ^ 64) x = num (2 ^ 64) y -> (length y <= length x)%nat) as G.
  { intros a b Da Db Lb E. destruct b as [|d b]; [cbn; lia|]. pose proof (K (d :: b) Db Lb ltac:(discriminate)) as [T _].
    pose proof (num_bound (2 ^ 64) a ltac:(lia) Da) as [_ T2]. rewrite E in T2.
    assert (Z.of_nat (length (d :: b)) - 1 < Z.of_nat (length a)); [|lia]. apply (Z.pow_lt_mono_r_iff (2 ^ 64)); lia. }
  apply Nat.le_antisymm; apply G; auto; congruence.
Qed.

Lemma quotient_unique n c d x y : 0 <= c < n -> 0 <= d < n -> Z.gcd y n = 1 -> (c * y) mod n = x mod n -> (d * y) mod n = x mod n -> c = d.
Proof.
  intros Hc Hd G E1 E2. assert ((n | (c - d) * y)) as D.
  { replace ((c - d) * y) with (c * y - d * y) by ring. apply Z.mod_divide; [lia|]. rewrite Zminus_mod, E1, E2, Z.sub_diag. reflexivity. }
  rewrite Z.mul_comm in D. apply Z.gauss in D; [|rewrite Z.gcd_comm; auto]. destruct D as [k Ek]. clear - Hc Hd Ek.
  assert (k = 0) by (destruct (Z.lt_trichotomy k 0) as [|[|]]; nia). subst k. lia.
Qed.

Lemma dividing_unique s d id n x y m b dn st o1 o2 : (b = true -> n = m) -> 2 * m < MAXV -> dn && st = false ->
  dividing s d id n x y m b dn st o1 -> dividing s d id n x y m b dn st o2 -> o1 = o2.
Proof.
  intros En L Ex.
  intros [(G1 & B1 & D1 & c1 & R1 & E1 & ->)|[(G1 & B1 & D1 & ->)|[(G1 & B1 & ->)|[(G1 & ->)|(_ & H)]]]]
         [(G2 & B2 & D2 & c2 & R2 & E2 & ->)|[(G2 & B2 & D2 & ->)|[(G2 & B2 & ->)|[(G2 & ->)|(_ & H')]]]];
    try lia; try congruence; try (rewrite D1, D2 in Ex; discriminate).
  specialize (En B1). subst m. rewrite (quotient_unique n c1 c2 x y); auto.
Qed.

Lemma allowed_unique c w s o1 o2 : depicts w s -> settled c s -> allowed c s o1 -> allowed c s o2 -> o1 = o2.
Proof.
  intros (known & [HU HI] & F & R & M) St.
  assert (forall k id n a, elem_at s k = Some (id, n, a) -> is_ring (known id) n) as MR.
  { intros k id n a E. specialize (M k). rewrite E in M. destruct (mods w k); [|contradiction]. apply M. }
  destruct c; cbn [allowed settled] in *; try contradiction; try congruence;
    try (unfold given; destruct (ring_at s r) as [[id n]|]; try congruence);
    try (unfold given; destruct (elem_at s x) as [[[id n] v]|] eqn:Ex; try congruence).
  - destruct (istep i (num_of s)); [congruence|]. destruct i; try contradiction. congruence.
  - destruct (valid_radix radix); [|congruence]. apply reading_unique, St.
  - destruct (valid_radix radix); [|congruence]. destruct (after_sign s0) as [sg t]. apply reading_unique, St.
  - intros (r & b & P & H1) (r' & b' & P' & H2). destruct (prefixed_fun _ _ _ _ _ P P') as [<- <-].
    destruct St as (r' & b' & P'' & St). destruct (prefixed_fun _ _ _ _ _ P P'') as [<- <-]. eapply reading_unique; eauto.
  - destruct (after_sign s0) as [sg t]. intros (r & b & P & H1) (r' & b' & P' & H2). destruct (prefixed_fun _ _ _ _ _ P P') as [<- <-].
    destruct St as (r' & b' & P'' & St). destruct (prefixed_fun _ _ _ _ _ P P'') as [<- <-]. eapply reading_unique; eauto.
  - intros (x & T1 & ->) (y & T2 & ->). rewrite (trait_text_unique _ _ _ x y T1 T2). reflexivity.
  - intros (x & T1 & ->) (y & T2 & ->). rewrite (trait_text_unique _ _ _ x y T1 T2). reflexivity.
  - destruct (valid_radix_spec radix); [|congruence]. intros (x & T1 & ->) (y & T2 & ->). rewrite (shows_unique f radix _ _ _ x y ltac:(lia) T1 T2). reflexivity.
  - destruct (valid_radix_spec radix); [|congruence]. intros (x & T1 & ->) (y & T2 & ->). rewrite (shows_unique f radix _ _ _ x y ltac:(lia) T1 T2). reflexivity.
  - intros (x & T1 & ->) (y & T2 & ->). assert (0 <= uz (num_of s) a) as K by (destruct (HU a) as [Ua <-]; apply uval_nonneg, Ua).
    rewrite (float_unique _ _ _ x y K T1 T2). reflexivity.
  - intros (x & T1 & ->) (y & T2 & ->). rewrite (float_unique _ _ _ x y (Z.abs_nonneg _) T1 T2). reflexivity.
  - intros (x & T1 & ->) (y & T2 & ->). rewrite (serial_unique _ x y T1 T2). reflexivity.
  - intros (x & T1 & ->) (y & T2 & ->). rewrite (serial_unique _ x y T1 T2). reflexivity.
  - destruct (ring_at s s0) as [[id' n']|]; congruence.
  - intros (x & (x1 & T1 & [= ->]) & ->) (y & (y1 & T2 & [= ->]) & ->). rewrite (trait_text_unique _ _ _ x1 y1 T1 T2). reflexivity.
  - destruct (elem_at s y) as [[[id' n'] v']|] eqn:Ey; [|congruence]. destruct (k <? 6)%nat; [|congruence].
    unfold mbin_outcome. destruct op; try congruence. apply dividing_unique; [|exact St|apply andb_negb_r].
    intros E. apply Z.eqb_eq in E as <-. eapply is_ring_unique; eauto.
  - cbn [affordable] in St. intros [->|[_ H1]] [->|[_ H2]]; congruence.
  - destruct St as [Af St]. cbn [affordable] in Af. destruct (Z.leb_spec 0 (iz (num_of s) a)).
    + rewrite Z.abs_eq in Af by lia. intros [->|[_ H1]] [->|[_ H2]]; congruence.
    + rewrite Z.abs_neq in Af by lia. destruct St as [St|St]; [lia|]. apply dividing_unique; auto. rewrite Af. reflexivity.
  - cbn [moderate] in St. intros [(G1 & c1 & R1 & E1 & ->)|[(G1 & ->)|(_ & H)]] [(G2 & c2 & R2 & E2 & ->)|[(G2 & ->)|(_ & H')]]; try lia; try congruence.
    rewrite (quotient_unique n c1 c2 1 v); auto; rewrite Z.mul_comm; auto.
  - destruct (elem_at s y) as [[[id' n'] v']|]; congruence.
  - destruct (elem_at s m) as [[[id' n'] v']|]; congruence.
  - intros (a & (x1 & y1 & T1 & T1' & [= ->]) & ->) (b & (x2 & y2 & T2 & T2' & [= ->]) & ->).
    rewrite (trait_text_unique _ _ _ x1 x2 T1 T2), (trait_text_unique _ _ _ y1 y2 T1' T2'). reflexivity.
Qed.

End ClientProofs.
