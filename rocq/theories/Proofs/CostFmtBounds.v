(** How many steps formatting takes (Model/CostFmt.v): writing digits, and numbers of bounded length. *)
From Coq Require Import Lia.
From Verif Require Import Model.Base Model.Words Model.FastDivide Model.DivWord Model.Mul Model.Buffer Model.UBig Model.IBig
  Model.Convert Model.MulOps Model.DivOps Model.Gcd Model.Pow Model.Radix Model.Fmt Model.Cost Model.CostDiv Model.CostOps Model.CostFmt Spec.Val.
From Verif Require Import Proofs.Basics Proofs.CostProofs Proofs.CostBounds Proofs.CostTheorems Proofs.CostRates Proofs.CostOpsProofs
  Proofs.CostOpsBounds Proofs.FastDivideProofs Proofs.DivWordProofs Proofs.RadixProofs Proofs.DigitWriterProofs Proofs.FmtProofs Proofs.CostFmtProofs.

Section Writing.
Context {A : Arch} {AOK : ArchOk A} (be : bool).

(** What waits in the buffer has already been paid for. *)
Definition pot (w : DigitWriter) : Z := 4 * Z.of_nat (dw_len w).
Definition writes (m : counted DigitWriter) (w : DigitWriter) (N : Z) : Prop :=
  forall w', snd m = Ok w' -> fst m + pot w' <= N + pot w.

Lemma cbind_inv {S T} (m : counted S) (k : S -> counted T) y : snd (cbind m k) = Ok y ->
  exists x, snd m = Ok x /\ snd (k x) = Ok y /\ fst (cbind m k) = fst m + fst (k x).
Proof.
  destruct m as [n [x|p]]; cbn [cbind snd fst]; [|discriminate]. destruct (k x) as [n' r] eqn:E. cbn [snd fst]. intros R.
  exists x. rewrite E. auto.
Qed.

Lemma writes_bind {S} (m : counted S) (k : S -> counted DigitWriter) w X N P :
  costs m X P -> (forall v, P v -> writes (k v) w (N - X)) -> writes (cbind m k) w N.
Proof.
  intros M K w' E. apply cbind_inv in E. destruct E as (x & E1 & E2 & ->). destruct (M x E1) as [L Q]. specialize (K x Q w' E2). lia.
Qed.

Lemma writes_bind_free {S} (m : res S) (k : S -> counted DigitWriter) w N :
  (forall v, m = Ok v -> writes (k v) w N) -> writes (cbind (free m) k) w N.
Proof. intros K. apply (writes_bind _ _ _ 0 _ (fun x => m = Ok x)); [apply costs_free|]. rewrite Z.sub_0_r. exact K. Qed.

Lemma writes_seq (m : counted DigitWriter) (k : DigitWriter -> counted DigitWriter) w X N :
  writes m w X -> (forall v, snd m = Ok v -> writes (k v) v (N - X)) -> writes (cbind m k) w N.
Proof.
  intros M K w' E. apply cbind_inv in E. destruct E as (x & E1 & E2 & ->). specialize (M x E1). specialize (K x E1 w' E2). lia.
Qed.

Lemma writes_ok w N : 0 <= N -> writes (free (Ok w)) w N.
Proof. intros L w' E. injection E as <-. cbn [fst free]. lia. Qed.

Lemma writes_panic p w N : writes (free (Panic p)) w N.
Proof. intros w' E. discriminate. Qed.

Lemma writes_le m w N N' : writes m w N -> N <= N' -> writes m w N'.
Proof. intros M L w' E. specialize (M w' E). lia. Qed.

Lemma costs_and {T} (m : counted T) N P (Q : T -> Prop) : costs m N P -> (forall x, snd m = Ok x -> Q x) -> costs m N (fun x => P x /\ Q x).
Proof. intros M H x E. destruct (M x E). auto. Qed.

Lemma rounded_le n : Z.of_nat (Z.to_nat (round_up (Z.of_nat n) (Z.of_nat DIGIT_CHUNK_LEN))) <= Z.of_nat n + 7.
Proof.
  assert (C : 1 <= Z.of_nat DIGIT_CHUNK_LEN <= 8) by (destruct chunk_cases as [-> | [-> | ->]]; lia).
  set (c := Z.of_nat DIGIT_CHUNK_LEN) in *. unfold round_up, ceil_div. set (z := Z.of_nat n). assert (Z0 : 0 <= z) by lia.
  destruct (Z.eqb_spec z 0) as [E|E]; [lia|]. pose proof (Z.mul_div_le (z - 1) c ltac:(lia)).
  pose proof (Z.div_pos (z - 1) c ltac:(lia) ltac:(lia)). nia.
Qed.

Lemma flush_len w w' : dw_flush be w = Ok w' -> dw_len w' = 0%nat.
Proof.
  unfold dw_flush. intros E. apply check_ok in E. destruct E as [_ E]. apply bind_inv in E. destruct E as (b & _ & E).
  apply bind_inv in E. destruct E as ([h t] & _ & E). apply bind_inv in E. destruct E as (h' & _ & E). cbv zeta in E. apply bind_inv in E. destruct E as (s & _ & E).
  injection E as <-. reflexivity.
Qed.

Lemma dw_write_writes w buf : writes (c_dw_write be w buf) w (6 * Z.of_nat (length buf) + 1).
Proof.
  unfold c_dw_write. generalize (length buf) at 1. intros fuel. revert w buf.
  induction fuel as [|fuel IH]; intros w buf; cbn [c_dw_write_loop].
  - destruct buf; [apply writes_ok; lia|apply writes_panic].
  - destruct buf as [|x buf]; [apply writes_ok; cbn; lia|]. set (b := x :: buf). assert (L1 : (1 <= length b)%nat) by (cbn; lia). clearbody b. clear x buf.
    apply writes_bind_free. intros u0 C. apply assert_ok in C. apply Nat.leb_le in C. cbv zeta. rewrite BUFFER_LEN_eq in *.
    set (len := Nat.min (length b) (32 - dw_len w)).
    apply writes_bind_free. intros [bc b'] E. apply split_len in E. destruct E as (_ & E & _).
    intros w' R. apply cbind_inv in R. destruct R as (b2 & R1 & R2 & ->). cbn [fst call]. clear R1 bc.
    set (w2 := mkDigitWriter b2 (dw_len w + len) (dw_case w) (dw_out w)) in *. apply cbind_inv in R2. destruct R2 as (w3 & R1 & R2 & ->).
    pose proof (IH w3 b' w' R2) as I. clear R2 IH. rewrite E in I.
    assert (D2 : dw_len w2 = (dw_len w + len)%nat) by reflexivity. unfold pot in *. destruct (Nat.eqb_spec (dw_len w2) 32) as [Q|Q].
    + unfold c_dw_flush in *. cbn [fst snd call] in *. apply flush_len in R1. rewrite R1 in I. rewrite Q in D2 |- *.
      pose proof (rounded_le 32) as RL.
      assert (RQ : Z.to_nat (round_up (Z.of_nat 32) (Z.of_nat DIGIT_CHUNK_LEN)) = 32%nat) by (destruct chunk_cases as [-> | [-> | ->]]; reflexivity).
      rewrite RQ. clear RQ RL. lia.
    + cbn [fst snd free] in *. injection R1 as <-. rewrite D2 in I. assert (len = length b) by lia. lia.
Qed.

Lemma set_len {T} i (v : T) l l' : set i v l = Ok l' -> length l' = length l.
Proof. unfold set. destruct (_ <? _)%nat; [|discriminate]. intros E. injection E as <-. clear. revert i. induction l as [|y l IH]; intros [|i]; cbn [upd length]; auto. Qed.

Lemma npw_loop_len fuel : forall f ms w ds st p, npw_loop fuel f ms w ds st = Ok p -> length (npw_digits p) = length ds.
Proof.
  induction fuel as [|fuel IH]; intros f ms w ds st p E; cbn [npw_loop] in E; destruct (_ || _); try discriminate; try (injection E as <-; reflexivity).
  apply bind_inv in E. destruct E as ([w' d] & _ & E). apply check_ok in E. destruct E as [_ E]. apply bind_inv in E. destruct E as (ds' & E1 & E).
  apply set_len in E1. apply IH in E. lia.
Qed.

Definition short (p : NpWord) : Prop := (length (npw_digits p) <= 64)%nat.

Lemma wbits_64 : wbits <= 64. Proof. destruct wbits_cases as [-> | [-> | ->]]; lia. Qed.

Lemma npw_new_costs x r m : costs (c_npw_new x r m) 129 short.
Proof.
  unfold c_npw_new. apply costs_bind_free. intros u0 _. apply costs_bind_free. intros ri _. apply costs_bind_free. intros md E.
  destruct max_digits_spec as (md' & E' & M & _). rewrite E' in E. injection E as <-. pose proof wbits_64.
  apply costs_bind_free. intros ms _. eapply costs_weaken; [apply costs_call|lia|]. intros p E. apply npw_loop_len in E. rewrite repeat_length in E.
  unfold short. lia.
Qed.

Lemma npw_write_writes p w : short p -> writes (c_npw_write be p w) w 385.
Proof.
  intros L. unfold c_npw_write, short in *. apply writes_bind_free. intros s E. unfold slice_from in E. destruct (_ <=? _)%nat; [|discriminate]. injection E as <-.
  eapply writes_le; [apply dw_write_writes|]. rewrite skipn_length. lia.
Qed.

Lemma write_groups_writes r d gs : forall w, writes (c_write_groups be gs r d w) w (514 * Z.of_nat (length gs)).
Proof.
  induction gs as [|g gs IH]; intros w; cbn [c_write_groups length]; [apply writes_ok; lia|].
  eapply writes_bind; [apply npw_new_costs|]. intros p P. eapply writes_seq; [apply (npw_write_writes p w P)|]. intros w' _.
  eapply writes_le; [apply IH|]. lia.
Qed.

Lemma fast_div_len ws x f w' c : fast_div_by_word_in_place ws x f = Ok (w', c) -> length w' = length ws.
Proof.
  intros H. unfold fast_div_by_word_in_place in H. apply bind_inv in H. destruct H as ([l y] & E & H). apply bind_inv in H. destruct H as ([l2 z] & E2 & H).
  injection H as <- _. apply shl_len in E. apply fast_div_loop_len in E2. lia.
Qed.

Lemma trim_len l : (length (rev (drop_zeros (rev l))) <= length l)%nat.
Proof. rewrite rev_length. etransitivity; [apply drop_zeros_len|]. now rewrite rev_length. Qed.

Lemma chunk_buffer_costs x : costs (c_ubig_to_chunk_buffer x) 33 (fun b => (length b <= 16)%nat).
Proof.
  unfold c_ubig_to_chunk_buffer. eapply costs_weaken; [apply costs_call|cbn; lia|]. intros b E. unfold ubig_to_chunk_buffer in E. cbv zeta in E.
  apply check_ok in E. destruct E as [C E]. apply Nat.leb_le in C. injection E as <-. exact C.
Qed.

Lemma npm_loop_costs fuel : forall ri b l, (length b <= 16)%nat -> (length l <= 16)%nat ->
  costs (c_npm_loop fuel ri b l) (50 * Z.of_nat fuel) (fun r => (length (snd r) <= 16)%nat).
Proof.
  induction fuel as [|fuel IH]; intros ri b l Lb Ll; cbn [c_npm_loop]; destruct (1 <? length b)%nat; try (apply costs_ok; [lia|exact Ll]); [apply costs_panic|].
  apply costs_bind_call. intros [b1 r] E. apply fast_div_len in E. cbv beta iota. apply costs_bind_free. intros u0 C. apply assert_ok in C. apply Nat.ltb_lt in C.
  unfold CHUNK_LEN in C. cbv zeta. apply costs_bind_call. intros b2 E2. injection E2 as <-. pose proof (trim_len b1). apply costs_bind_free. intros u1 _.
  eapply costs_weaken; [apply IH; [lia|rewrite app_length; cbn [length]; lia]|lia|auto].
Qed.

Definition medium (p : NpMedium) : Prop := short (npm_top p) /\ (length (npm_low p) <= 16)%nat.

Lemma npm_new_costs x r : costs (c_npm_new x r) 1012 medium.
Proof.
  unfold c_npm_new. apply costs_bind_free. intros u0 _. apply costs_bind_free. intros ri _.
  eapply costs_bind; [apply chunk_buffer_costs|]. intros b Lb. eapply costs_bind; [apply (npm_loop_costs (S CHUNK_LEN) ri b []); [exact Lb|cbn; lia]|].
  intros [b' l] L. cbn [snd] in L. cbv beta iota. destruct b' as [|w [|? ?]]; try apply costs_panic.
  eapply costs_bind; [apply npw_new_costs|]. intros t T. apply costs_ok; [unfold CHUNK_LEN; lia|]. split; assumption.
Qed.

Lemma npm_write_writes p w : medium p -> writes (c_npm_write be p w) w 8609.
Proof.
  intros [M1 M2]. unfold c_npm_write. apply writes_bind_free. intros ri _. eapply writes_seq; [apply (npw_write_writes _ w M1)|]. intros w' _.
  eapply writes_le; [apply write_groups_writes|]. rewrite rev_length. lia.
Qed.

Lemma chunk_groups_costs n : forall ri b, (length b <= 16)%nat -> costs (c_chunk_groups n ri b) (50 * Z.of_nat n) (fun r => length (fst r) = n).
Proof.
  induction n as [|n IH]; intros ri b L; cbn [c_chunk_groups]; [apply costs_ok; [lia|reflexivity]|].
  apply costs_bind_call. intros [b1 r] E. apply fast_div_len in E. cbv beta iota. apply costs_bind_call. intros b2 E2. injection E2 as <-. pose proof (trim_len b1).
  eapply costs_bind; [apply (IH ri (rev (drop_zeros (rev b1)))); lia|]. intros [gs b3] G. cbn [fst] in G. cbv beta iota.
  apply costs_ok; [lia|]. cbn [fst length]. lia.
Qed.

Lemma write_chunk_writes r w x : writes (c_npl_write_chunk be r w x) w 9057.
Proof.
  unfold c_npl_write_chunk. apply writes_bind_free. intros ri _. eapply writes_bind; [apply chunk_buffer_costs|]. intros b Lb.
  eapply writes_bind; [apply (chunk_groups_costs CHUNK_LEN ri b Lb)|]. intros [gs b'] G. cbn [fst] in G. cbv beta iota. apply writes_bind_free. intros u0 _.
  eapply writes_le; [apply write_groups_writes|]. rewrite rev_length, G. unfold CHUNK_LEN. lia.
Qed.

(** *** Radices that are powers of two *)

Lemma p2w_digits_len n : forall i p ds ds', p2w_digits n i p ds = Ok ds' -> length ds' = length ds.
Proof.
  induction n as [|n IH]; intros i p ds ds' E; cbn [p2w_digits] in E; [now injection E as <-|].
  apply bind_inv in E. destruct E as (s & _ & E). apply check_ok in E. destruct E as [_ E]. cbv zeta in E. apply bind_inv in E. destruct E as (j & _ & E).
  apply bind_inv in E. destruct E as (d1 & E1 & E). apply set_len in E1. apply IH in E. lia.
Qed.

Lemma p2w_write_writes p w : writes (c_p2w_write be p w) w 514.
Proof.
  unfold c_p2w_write. pose proof wbits_64. pose proof wbits_ge. eapply writes_bind; [apply costs_call|]. intros ds E. cbv beta in E. apply p2w_digits_len in E. rewrite repeat_length in E.
  apply writes_bind_free. intros s Es. unfold slice_to in Es. destruct (_ <=? _)%nat; [|discriminate]. injection Es as <-.
  eapply writes_le; [apply dw_write_writes|]. rewrite firstn_length. lia.
Qed.

Lemma p2l_loop_writes fuel : forall it x b lr w, writes (c_p2l_loop be fuel it x b lr w) w (7 * Z.of_nat fuel).
Proof.
  induction fuel as [|fuel IH]; intros it x b lr w; cbn [c_p2l_loop]; [apply writes_panic|]. cbv zeta. destruct (b <? lr).
  - destruct it as [|y it].
    + apply writes_bind_free. intros u0 _. apply writes_ok. lia.
    + apply writes_bind_free. intros b' _. apply writes_bind_free. intros u0 _. eapply writes_seq; [apply dw_write_writes|]. intros w' _.
      eapply writes_le; [apply IH|]. cbn [length]. lia.
  - apply writes_bind_free. intros u0 _. eapply writes_seq; [apply dw_write_writes|]. intros w' _.
    eapply writes_le; [apply IH|]. cbn [length]. lia.
Qed.

Lemma p2l_write_writes ws r p w : wf ws -> p2l_new ws r = Ok p -> writes (c_p2l_write be p w) w (448 * len ws + 14).
Proof.
  intros F E. assert (W : p2l_width p <= 64 * len ws + 1).
  { unfold p2l_new in E. apply check_ok in E. destruct E as [_ E]. cbv zeta in E. destruct (rev ws) as [|y t] eqn:R; [discriminate|].
    assert (L1 : 1 <= len ws) by (unfold len; rewrite <- rev_length, R; cbn [length]; lia).
    apply bind_inv in E. destruct E as (b1 & E1 & E). apply bind_inv in E. destruct E as (b2 & E2 & E). injection E as <-. cbn [p2l_width].
    unfold usize_chk, checked in E1, E2.
    destruct (_ && _) eqn:C1 in E1; [|discriminate]. injection E1 as <-. destruct (_ && _) eqn:C2 in E2; [|discriminate]. injection E2 as <-.
    apply andb_prop in C2. destruct C2 as [C2 _]. apply Z.leb_le in C2.
    assert (LZ : 0 <= leading_zeros_w y).
    { apply leading_zeros_w_range. apply (proj1 (Forall_forall _ _) F). rewrite <- (rev_involutive ws), R. apply in_rev. rewrite rev_involutive. left. reflexivity. }
    pose proof wbits_64. fold (len ws) in *. set (z := len ws * wbits - leading_zeros_w y) in *. assert (z <= 64 * len ws) by (subst z; nia). clearbody z.
    assert (CD : ceil_div z (z_tz r) <= z). 
    { unfold ceil_div. destruct (Z.eqb_spec z 0); [lia|]. destruct (Z.eq_dec (z_tz r) 0) as [->|N].
      - rewrite Zdiv_0_r. lia.
      - assert (0 <= z_tz r) by (destruct r as [|q|q]; cbn [z_tz]; [lia|destruct (pos_tz_spec q) as (? & ? & ? & ?); assumption..]).
        assert ((z - 1) / z_tz r <= z - 1); [|lia]. apply Z.div_le_upper_bound; nia. }
    lia. }
  unfold c_p2l_write. destruct (rev (p2l_words p)) as [|y it]; [apply writes_panic|]. apply writes_bind_free. intros a _. apply writes_bind_free. intros b _.
  apply writes_bind_free. intros d _. cbv zeta. eapply writes_le; [apply p2l_loop_writes|]. unfold len in *. lia.
Qed.

(** *** Sign, prefix, digits, padding *)

Definition extra (self : InRadixFull) (f : Formatter) : Z :=
  len (irf_prefix self) + match f_width f with Some m => Z.max 0 m | None => 0 end.

Lemma write_digits_costs self write out N : (forall w, writes (write w) w N) -> costs (c_write_digits be self write out) (N + len out + 56) (fun _ => True).
Proof.
  intros W out' E. unfold c_write_digits in E |- *. apply cbind_inv in E. destruct E as (w & E1 & E & ->). cbn [snd call] in E1. injection E1 as <-.
  apply cbind_inv in E. destruct E as (w1 & E1 & E & ->). apply cbind_inv in E. destruct E as (w2 & E2 & E & ->). split; [|exact I].
  pose proof (W _ _ E1) as X. set (w0 := dw_new out (irf_case self)) in *. assert (D0 : dw_len w0 = 0%nat) by reflexivity. unfold pot in X. rewrite D0 in X.
  clearbody w0. cbn [fst free]. unfold c_dw_flush. cbn [fst call]. pose proof (rounded_le (dw_len w1)). rewrite BUFFER_LEN_eq. unfold len. lia.
Qed.

Lemma format_prepared_costs self f width write N V : 0 <= N -> 0 <= V -> costs width V (fun _ => True) -> (forall w, writes (write w) w N) ->
  costs (c_format_prepared be self f width write) (N + V + extra self f + 60) (fun _ => True).
Proof.
  intros N0 V0 WD W. unfold c_format_prepared. eapply costs_bind; [exact WD|]. intros n _. cbv zeta.
  set (sgn := match irf_sign self with Positive => _ | Negative => _ end).
  assert (LS : len sgn <= 1) by (subst sgn; destruct (irf_sign self); [destruct (f_sign_plus f)|]; unfold len; cbn [length]; lia). clearbody sgn.
  assert (LA : forall l1 l2 : list Z, len (l1 ++ l2) = len l1 + len l2) by (intros; unfold len; rewrite app_length; lia).
  assert (LR : forall (c : Z) m, len (repeat c m) = Z.of_nat m) by (intros; unfold len; now rewrite repeat_length).
  assert (LP : 0 <= len (irf_prefix self)) by (unfold len; lia). unfold extra.
  apply costs_bind_free. intros n1 E1. apply costs_bind_free. intros n2 E2.
  assert (P2 : 0 <= n2).
  { unfold usize_chk, checked in E2. destruct (_ && _) eqn:C; [|discriminate]. apply andb_prop in C. destruct C as [C _]. apply Z.leb_le in C. congruence. }
  clear E1 E2. destruct (f_width f) as [m|].
  - destruct (Z.leb_spec m n2).
    + eapply costs_weaken; [apply (write_digits_costs self write _ N W)|rewrite LA; lia|auto].
    + destruct (f_zero_pad f).
      * eapply costs_weaken; [apply (write_digits_costs self write _ N W)|rewrite !LA, LR; lia|auto].
      * set (left := match f_align f with Some AlignLeft => 0 | _ => _ end).
        assert (LL : 0 <= left <= m - n2).
        { subst left. destruct (f_align f) as [[]|]; lia. }
        clearbody left. eapply costs_bind; [apply (write_digits_costs self write _ N W)|]. intros out _. rewrite !LA, LR.
        eapply costs_weaken; [apply costs_call|lia|auto].
  - eapply costs_weaken; [apply (write_digits_costs self write _ N W)|rewrite LA; lia|auto].
Qed.

End Writing.
