(** Serialization with serializers and deserializers that report errors. *)
From Verif Require Import Model.Base Model.Words Model.Buffer Model.UBig Model.IBig Model.Convert Model.Serde Model.Sink Model.SerdeErr
  Spec.Val Spec.Num Spec.Prim Spec.Digits Spec.Sinks Spec.SerdeCalls
  Proofs.Basics Proofs.DigitsProofs Proofs.BufferProofs Proofs.SerdeProofs Proofs.SinkProofs.
From Coq Require Import Lia.

Section SerdeErr.
Context {A : Arch} {AOK : ArchOk A}.

(** ** Serialization *)

Lemma chunks_after W (put : W -> scall -> W * bool) cs : forall es s, chunk_words cs = Ok es ->
  serialize_chunks put cs s = Ok (after put s (map CElement es) (fun s => s)).
Proof.
  induction cs as [|c cs IH]; intros es s E; cbn [chunk_words serialize_chunks] in *.
  - injection E as <-. reflexivity.
  - destruct (chunk_word 0 c 0) as [w|]; [|discriminate]. cbn [bind] in *.
    destruct (chunk_words cs) as [ws|] eqn:E1; [|discriminate]. cbn [bind] in E. injection E as <-.
    rewrite emit_after. apply (after_bind put s [CElement w]). intros s'. apply IH. reflexivity.
Qed.

Lemma serialize_after W (put : W -> scall -> W * bool) u n es s : ubig_serialize u = Ok (n, es) ->
  ubig_serialize_to put u s = Ok (after put s (CSeq n :: map CElement es ++ [CSeqEnd]) (fun s => s)).
Proof.
  intros E. unfold ubig_serialize, ubig_serialize_to in *. set (cs := chunks _ _ _) in *.
  destruct (chunk_words cs) as [ws|] eqn:E1; [|discriminate]. cbn [bind] in E. injection E as <- <-.
  rewrite emit_after. apply (after_bind put s [CSeq _]). intros s1. rewrite (chunks_after W put cs ws s1 E1).
  apply after_bind. intros s2. apply emit_after.
Qed.

Theorem ubig_serialize_calls u : ubig_ok u -> exists es,
  digits_ok (2 ^ 64) es /\ (es = [] \/ last es 0 <> 0) /\ num (2 ^ 64) es = uval u /\
  forall W (put : W -> scall -> W * bool) s,
    ubig_serialize_to put u s = Ok (let (s', ok) := feed put s (seq_calls es) in if ok then Done s' else Failed s').
Proof.
  intros Hu. destruct (ubig_serialize_spec u Hu) as (es & E & D & T & V). exists es. split; [exact D|]. split; [exact T|]. split; [exact V|].
  intros W put s. exact (serialize_after W put u _ es s E).
Qed.

Theorem ibig_serialize_calls x : ibig_ok x -> exists es,
  digits_ok (2 ^ 64) es /\ (es = [] \/ last es 0 <> 0) /\ num (2 ^ 64) es = Z.abs (ival x) /\
  forall W (put : W -> scall -> W * bool) s,
    ibig_serialize_to put x s =
    Ok (let (s', ok) := feed put s (pair_calls (if ival x <? 0 then Negative else Positive) es) in if ok then Done s' else Failed s').
Proof.
  intros Hx. destruct (ibig_serialize_spec x Hx) as (es & E & D & T & V). exists es. split; [exact D|]. split; [exact T|]. split; [exact V|].
  intros W put s. unfold ibig_serialize in E. destruct (ubig_serialize (imag x)) as [[n es']|] eqn:E1; [|discriminate]. cbn [bind] in E.
  injection E as E2 -> ->. rewrite <- E2. unfold ibig_serialize_to.
  change (let (s', ok) := feed put s (pair_calls (isign x) es) in if ok then Done s' else Failed s') with
    (after put s (pair_calls (isign x) es) (fun s => s)).
  rewrite emit_after. apply (after_bind put s [CTuple 2]). intros s1. rewrite emit_after. apply (after_bind put s1 [CSign (isign x)]). intros s2.
  rewrite (serialize_after W put (imag x) _ es s2 E1). apply (after_bind put s2 (seq_calls es)). intros s3. apply emit_after.
Qed.

(** ** Deserialization *)

Context {E : Type}.
Implicit Types (es : list Z) (e : option E) (err : E).

Lemma collect_spec es e : forall fuel acc, (length es < fuel)%nat ->
  collect fuel (es, e) acc = Ok (match e with Some err => Failed err | None => Done (acc ++ es) end).
Proof.
  induction es as [|x es IH]; intros [|fuel] acc L; cbn [length] in L; try lia; cbn [collect next_element].
  - destruct e; cbn; [reflexivity|]. rewrite app_nil_r. reflexivity.
  - unfold wbind. cbn [bind fst snd]. rewrite IH by lia. rewrite <- app_assoc. reflexivity.
Qed.

Lemma counted_ok n : forall es b,
  @read_counted A E n (es, None) b = ('(b, seq) <- read_hinted n es b ;; Ok (Done (b, (seq, None)))).
Proof.
  induction n as [|n IH]; intros [|x es] b; cbn [read_counted read_hinted]; try reflexivity.
  unfold next_or_panic, wbind. cbn [next_element bind fst snd next_unwrap]. destruct (push_word_64 b x); cbn [bind]; [apply IH|reflexivity].
Qed.

Lemma end_ok es : @end_or_panic E (es, None) = (_ <- assert_end es ;; Ok (Done tt)).
Proof. destruct es; reflexivity. Qed.

(** Without errors, whatever the hint, it is the model without errors. *)
Theorem deserialize_no_error h es : @ubig_deserialize_from A E h (es, None) = (u <- ubig_deserialize h es ;; Ok (Done u)).
Proof.
  unfold ubig_deserialize_from, ubig_deserialize, visit_seq_from, visit_seq. destruct h as [n|].
  - destruct (n =? 0); [rewrite end_ok; destruct (assert_end es); reflexivity|].
    destruct (n =? 1).
    + unfold next_or_panic. destruct es as [|x es]; [reflexivity|]. unfold wbind at 1 2. cbn [next_element bind fst snd next_unwrap].
      rewrite end_ok. destruct (assert_end es); [|reflexivity]. unfold wbind. cbn [bind]. reflexivity.
    + destruct (len_64_to_max_len n) as [m|]; [|reflexivity]. cbn [bind]. destruct (allocate m) as [b|]; [|reflexivity]. cbn [bind].
      rewrite counted_ok. destruct (read_hinted (Z.to_nat n) es b) as [[b' seq]|]; [|reflexivity]. unfold wbind at 1. cbn [bind fst snd].
      rewrite end_ok. destruct (assert_end seq); [|reflexivity]. unfold wbind. cbn [bind]. reflexivity.
  - cbn [fst]. rewrite collect_spec by lia. unfold wbind. cbn [bind app].
    destruct (len_64_to_max_len (len es)) as [m|]; [|reflexivity]. cbn [bind]. destruct (allocate m) as [b|]; [|reflexivity]. cbn [bind].
    destruct (push_all es b) as [b'|]; reflexivity.
Qed.

(** ** Errors and wrong hints *)

Lemma counted_spec n : forall es e ws c, digits_ok (2 ^ 64) es -> len ws + Z.of_nat n * WP <= c ->
  ((length es < n)%nat -> read_counted n (es, e) (mkBuffer ws c) = match e with Some err => Ok (Failed err) | None => Panic Internal end) /\
  ((n <= length es)%nat -> exists ps, read_counted n (es, e) (mkBuffer ws c) = Ok (Done (mkBuffer ps c, (skipn n es, e)))).
Proof.
  induction n as [|n IH]; intros es e ws c D L.
  - split; [lia|]. intros _. exists ws. reflexivity.
  - assert (0 <= WP) as PW by (unfold WP; lia).
    destruct es as [|x es]; cbn [read_counted length skipn].
    + split; [|lia]. intros _. destruct e; reflexivity.
    + apply digits_ok_cons in D as [Dx D]. unfold next_or_panic, wbind. cbn [next_element bind fst snd].
      destruct (push_word_64_spec x ws c Dx) as (p1 & -> & W1 & L1 & V1); [nia|]. cbn [bind].
      destruct (IH es e (ws ++ p1) c D) as [I1 I2].
      { unfold len, WP in *. rewrite app_length, L1. lia. }
      split; intros Hn; [apply I1|apply I2]; lia.
Qed.

Lemma fits_n n : 64 * n <= wbits * (MAX_LEN + 4) <-> n * WP <= MAX_CAPACITY.
Proof. unfold MAX_CAPACITY. destruct WP_spec as [H _]. pose proof wbits_ge as HW. clear - H HW. rewrite <- H. split; nia. Qed.

Lemma hinted_start n (T : Type) (k : Buffer -> res T) : 0 <= n -> 64 * n <= wbits * (MAX_LEN + 4) ->
  exists c, n * WP <= c /\ (m <- len_64_to_max_len n ;; b <- allocate m ;; k b) = k (mkBuffer [] c).
Proof.
  intros Hn L. apply fits_n in L. pose proof max_capacity_lt. assert (0 <= WP) by (unfold WP; lia).
  unfold len_64_to_max_len. fold WP. rewrite (proj2 (Z.ltb_lt _ _)) by lia. cbn [bind].
  destruct (allocate_spec (n * WP)) as (c & -> & Hc & _); [nia|]. cbn [bind]. exists c. split; [lia|reflexivity].
Qed.

Theorem deserialize_error h es err : digits_ok (2 ^ 64) es ->
  (forall n, h = Some n -> Z.of_nat (length es) <= n /\ 64 * n <= wbits * (MAX_LEN + 4)) ->
  ubig_deserialize_from h (es, Some err) = Ok (Failed err).
Proof.
  intros D H. unfold ubig_deserialize_from, visit_seq_from. destruct h as [n|].
  - destruct (H n eq_refl) as [L F]. destruct (Z.eqb_spec n 0) as [->|N0].
    { assert (es = []) as -> by (destruct es; [reflexivity|cbn [length] in L; lia]). reflexivity. }
    destruct (Z.eqb_spec n 1) as [->|N1].
    { destruct es as [|x [|y es]]; [reflexivity|reflexivity|cbn [length] in L; lia]. }
    destruct (hinted_start n _ (fun b => r <~ read_counted (Z.to_nat n) (es, Some err) b ;;
        _ <~ end_or_panic (snd r) ;; u <- from_buffer (fst r) ;; Ok (Done u))) as (c & Hc & ->); [lia|exact F|].
    destruct (counted_spec (Z.to_nat n) es (Some err) [] c D) as [C1 C2]; [change (len []) with 0; lia|].
    destruct (Z.eq_dec (Z.of_nat (length es)) n) as [Q|Q].
    + destruct C2 as (ps & ->); [lia|]. unfold wbind at 1. cbn [bind fst snd]. rewrite skipn_all2 by lia. reflexivity.
    + rewrite C1 by lia. reflexivity.
  - cbn [fst]. rewrite collect_spec by lia. reflexivity.
Qed.

Theorem deserialize_wrong_hint n es e : digits_ok (2 ^ 64) es -> 0 <= n -> 64 * n <= wbits * (MAX_LEN + 4) ->
  n < Z.of_nat (length es) \/ (Z.of_nat (length es) < n /\ e = None) ->
  ubig_deserialize_from (Some n) (es, e) = Panic Internal.
Proof.
  intros D Hn F H. unfold ubig_deserialize_from, visit_seq_from. destruct (Z.eqb_spec n 0) as [->|N0].
  { destruct es as [|x es]; [cbn [length] in H; lia|reflexivity]. }
  destruct (Z.eqb_spec n 1) as [->|N1].
  { destruct es as [|x [|y es]]; [|cbn [length] in H; lia|reflexivity]. cbn [length] in H. destruct H as [H|[_ ->]]; [lia|reflexivity]. }
  destruct (hinted_start n _ (fun b => r <~ read_counted (Z.to_nat n) (es, e) b ;;
      _ <~ end_or_panic (snd r) ;; u <- from_buffer (fst r) ;; Ok (Done u))) as (c & Hc & ->); [lia|exact F|].
  destruct (counted_spec (Z.to_nat n) es e [] c D) as [C1 C2]; [change (len []) with 0; lia|].
  destruct H as [H|[H ->]].
  - destruct C2 as (ps & ->); [lia|]. unfold wbind at 1. cbn [bind fst snd].
    destruct (skipn (Z.to_nat n) es) as [|y t] eqn:S0; [|reflexivity].
    apply (f_equal (@length Z)) in S0. rewrite skipn_length in S0. cbn [length] in S0. lia.
  - rewrite C1 by lia. reflexivity.
Qed.

Theorem deserialize_huge_hint n es e : wbits * (MAX_LEN + 4) < 64 * n ->
  ubig_deserialize_from (Some n) (es, e) = Panic NumberTooLarge.
Proof.
  intros F. unfold ubig_deserialize_from, visit_seq_from. destruct WP_spec as [HW1 HW]. pose proof wbits_ge as Hb. pose proof MAX_LEN_ge as HM.
  assert (G : MAX_CAPACITY < n * WP) by (pose proof (fits_n n); lia).
  assert (5 <= MAX_CAPACITY) by (unfold MAX_CAPACITY; lia). unfold WP in *.
  rewrite (proj2 (Z.eqb_neq n 0)), (proj2 (Z.eqb_neq n 1)) by (clear - G H HW; nia).
  unfold len_64_to_max_len. destruct (Z.ltb_spec (n * Z.of_nat WORDS_PER_U64) (2 ^ ubits)); [|reflexivity]. cbn [bind].
  rewrite allocate_too_large by auto. reflexivity.
Qed.

(** The sign and the magnitude of a signed number. *)
Theorem ideserialize_sign_error err h es e : ibig_deserialize_from (Failed err) h (es, e) = Ok (Failed err).
Proof. reflexivity. Qed.

Theorem ideserialize_magnitude s h es e :
  ibig_deserialize_from (Done s) h (es, e) =
  (r <- ubig_deserialize_from h (es, e) ;; Ok (match r with Done m => Done (from_sign_magnitude s m) | Failed err => Failed err end)).
Proof. unfold ibig_deserialize_from, wbind. cbn [bind]. destruct (ubig_deserialize_from h (es, e)) as [[]|]; reflexivity. Qed.

Theorem ideserialize_no_error s h es : @ibig_deserialize_from A E (Done s) h (es, None) = (x <- ibig_deserialize s h es ;; Ok (Done x)).
Proof. rewrite ideserialize_magnitude, deserialize_no_error. unfold ibig_deserialize. destruct (ubig_deserialize h es); reflexivity. Qed.

Theorem ideserialize_error s h es err : digits_ok (2 ^ 64) es ->
  (forall n, h = Some n -> Z.of_nat (length es) <= n /\ 64 * n <= wbits * (MAX_LEN + 4)) ->
  ibig_deserialize_from (Done s) h (es, Some err) = Ok (Failed err).
Proof. intros D H. rewrite ideserialize_magnitude, deserialize_error by auto. reflexivity. Qed.

End SerdeErr.
