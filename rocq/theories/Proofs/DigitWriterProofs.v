(** The digit writer turns raw digits into text. *)
From Verif Require Import Model.Base Model.Words Model.Convert Model.Radix Model.Fmt Spec.Val Spec.Digits Spec.FmtText
  Proofs.Basics Proofs.DigitsProofs Proofs.ConvertProofs.
From Coq Require Import Lia.

Section DigitWriterProofs.
Context {A : Arch} {AOK : ArchOk A} (be : bool).

Definition vdig (case : digit_case) (d : Z) : Prop :=
  0 <= d <= match case with NoLetters => 9 | _ => 35 end.
Definition is_upper (case : digit_case) : bool := match case with Upper => true | _ => false end.
Definition asc (case : digit_case) (d : Z) : Z := digit_text (is_upper case) d.

Lemma asc_byte case d : vdig case d -> 0 <= asc case d < 128.
Proof. unfold vdig, asc, digit_text, is_upper. intros H. destruct case; destruct (Z.leb_spec d 9); lia. Qed.

(** Byte-parallel arithmetic. *)
Lemma num_map_add b f g (l : list Z) : num b (map f l) + num b (map g l) = num b (map (fun x => f x + g x) l).
Proof. induction l as [|x t IH]; cbn [map num]; [reflexivity|]. rewrite <- IH. ring. Qed.
Lemma num_map_mul b f c (l : list Z) : num b (map f l) * c = num b (map (fun x => f x * c) l).
Proof. induction l as [|x t IH]; cbn [map num]; [reflexivity|]. rewrite <- IH. ring. Qed.
Lemma num_map_ext b f g (P : Z -> Prop) (l : list Z) : Forall P l -> (forall x, P x -> f x = g x) -> num b (map f l) = num b (map g l).
Proof. intros H E. induction H as [|x t Hx Ht IH]; cbn [map num]; [reflexivity|]. rewrite IH, E by auto. reflexivity. Qed.
Lemma digits_map b f (P : Z -> Prop) l : Forall P l -> (forall x, P x -> 0 <= f x < b) -> digits_ok b (map f l).
Proof. intros H E. induction H; cbn [map]; constructor; auto. Qed.

Lemma land_split a b : 0 <= a -> 0 <= b -> Z.land a (1 + 256 * b) = a mod 2 + 256 * Z.land (a / 256) b.
Proof.
  intros Ha Hb. rewrite (Z.div_mod (Z.land a (1 + 256 * b)) 256) by lia. change 256 with (2 ^ 8) at 3.
  rewrite <- Z.shiftr_div_pow2, Z.shiftr_land, !Z.shiftr_div_pow2 by lia. change (2 ^ 8) with 256.
  replace ((1 + 256 * b) / 256) with b by (apply Z.div_unique with 1; lia).
  change 256 with (2 ^ 8) at 4. rewrite <- Z.land_ones by lia. rewrite <- Z.land_assoc, Z.land_ones by lia.
  change (2 ^ 8) with 256. replace ((1 + 256 * b) mod 256) with 1 by (apply Z.mod_unique with b; lia).
  change 1 with (Z.ones 1). rewrite Z.land_ones by lia. lia.
Qed.

Lemma num_high bs : digits_ok 256 bs ->
  Z.land (Z.shiftr (num 256 bs) 7) (num 256 (map (fun _ => 1) bs)) = num 256 (map (fun d => d / 128) bs).
Proof.
  rewrite Z.shiftr_div_pow2 by lia. change (2 ^ 7) with 128.
  induction 1 as [|d t Hd Ht IH]; cbn [num map]; [reflexivity|].
  pose proof (num_bound 256 t ltac:(lia) Ht).
  assert (Hm : 0 <= num 256 (map (fun _ => 1) t)). { clear. induction t; cbn [map num]; lia. }
  rewrite land_split by (auto; apply Z.div_pos; lia).
  replace ((d + 256 * num 256 t) / 128) with (d / 128 + 2 * num 256 t) by (clear - Hd; dlia).
  replace ((d / 128 + 2 * num 256 t) / 256) with (num 256 t / 128) by (clear - Hd H; dlia).
  rewrite IH. f_equal. clear - Hd H. dlia.
Qed.

Lemma ones_num (l : list Z) : length l = WORD_BYTES -> ALL_ONES = num 256 (map (fun _ => 1) l).
Proof.
  intros H. assert (E : map (fun _ : Z => 1) l = repeat 1 WORD_BYTES).
  { rewrite <- H. clear. induction l; cbn [map length repeat]; congruence. }
  rewrite E. unfold ALL_ONES, WORD_BYTES, B. destruct wbits_cases as [-> | [-> | ->]]; reflexivity.
Qed.

Lemma word_num bs : digits_ok 256 bs -> length bs = WORD_BYTES -> word_chk (num 256 bs) = Ok (num 256 bs).
Proof.
  intros H L. pose proof (num_word bs H ltac:(lia)). unfold word_chk, checked. fold B.
  rewrite (proj2 (Z.leb_le _ _)), (proj2 (Z.ltb_lt _ _)) by (fold B; lia). reflexivity.
Qed.

Lemma chunk_num bs case : Forall (vdig case) bs -> length bs = WORD_BYTES ->
  exists w, (word <- match case with
          | NoLetters => Ok (num 256 bs)
          | _ =>
              k <- word_chk (118 * ALL_ONES) ;;
              s <- word_chk (k + num 256 bs) ;;
              let letters := Z.land (shr_w s 7) ALL_ONES in
              m <- word_chk (letters * case_offset case) ;;
              word_chk (num 256 bs + m)
          end ;;
  k <- word_chk (ALL_ONES * 48) ;;
  word <- word_chk (word + k) ;; Ok word) = Ok w /\ w = num 256 (map (asc case) bs).
Proof.
  intros V L. rewrite (ones_num bs L). pose proof (fun f g => num_map_add 256 f g bs) as PA.
  pose proof (fun f c => num_map_mul 256 f c bs) as PM.
  assert (ID : num 256 bs = num 256 (map (fun x => x) bs)) by (rewrite map_id; reflexivity).
  assert (WC : forall f, (forall x, vdig case x -> 0 <= f x < 256) -> word_chk (num 256 (map f bs)) = Ok (num 256 (map f bs))).
  { intros f Hf. apply word_num; [eapply digits_map; eauto|rewrite map_length; auto]. }
  exists (num 256 (map (asc case) bs)); split; [|reflexivity].
  assert (F : forall f, (forall x, vdig case x -> f x + 48 = asc case x) ->
     (k <- word_chk (num 256 (map (fun _ => 1) bs) * 48) ;; word <- word_chk (num 256 (map f bs) + k) ;; Ok word) =
     Ok (num 256 (map (asc case) bs))).
  { intros f Hf. rewrite PM, WC by lia. cbn [bind]. rewrite PA.
    rewrite (num_map_ext 256 _ (asc case) (vdig case)); [|auto|intros x Hx; rewrite Hf; auto; lia].
    rewrite WC by (intros x Hx; pose proof (asc_byte case x Hx); lia). reflexivity. }
  destruct (match case with NoLetters => true | _ => false end) eqn:Ec.
  - destruct case; try discriminate. cbn [bind]. rewrite ID. apply F.
    intros x Hx. unfold asc, digit_text. red in Hx. destruct (Z.leb_spec x 9); lia.
  - assert (E1 : num 256 (map (fun _ => 1) bs) * 118 = num 256 (map (fun _ => 118) bs)).
    { rewrite PM. reflexivity. }
    assert (R : forall x, vdig case x -> 0 <= x <= 35) by (intros x Hx; red in Hx; destruct case; lia).
    assert (OFF : 0 <= case_offset case <= 39) by (destruct case; cbn; lia).
    set (f := fun x => x + (118 + x) / 128 * case_offset case).
    assert (E : (k <- word_chk (118 * num 256 (map (fun _ => 1) bs)) ;;
              s <- word_chk (k + num 256 bs) ;;
              let letters := Z.land (shr_w s 7) (num 256 (map (fun _ => 1) bs)) in
              m <- word_chk (letters * case_offset case) ;;
              word_chk (num 256 bs + m)) = Ok (num 256 (map f bs))).
    { rewrite (Z.mul_comm 118), E1, WC by lia. cbn [bind]. rewrite ID. rewrite PA, WC by (intros x Hx; apply R in Hx; lia).
      cbn [bind]. unfold shr_w.
      assert (E2 : map (fun _ : Z => 1) bs = map (fun _ => 1) (map (fun x => 118 + x) bs)) by (rewrite map_map; reflexivity).
      rewrite E2, num_high, map_map.
      2:{ eapply digits_map; [exact V|]. intros x Hx. apply R in Hx. lia. }
      rewrite PM, WC. 2:{ intros x Hx. apply R in Hx. assert (0 <= (118 + x) / 128 <= 1) by (clear - Hx; dlia). nia. }
      cbn [bind]. rewrite PA. apply WC. intros x Hx. apply R in Hx. assert (0 <= (118 + x) / 128 <= 1) by (clear - Hx; dlia). nia. }
    assert (Fx : forall x, vdig case x -> f x + 48 = asc case x).
    { intros x Hx. apply R in Hx. unfold f, asc, digit_text. assert (Hq : (118 + x) / 128 = if x <=? 9 then 0 else 1).
      { destruct (Z.leb_spec x 9); clear - Hx H; dlia. }
      rewrite Hq. destruct case; try discriminate; cbn [case_offset is_upper]; destruct (Z.leb_spec x 9); lia. }
    destruct case; try discriminate; rewrite E; cbn [bind]; apply F; exact Fx.
Qed.

Lemma to_le_of_num bs : digits_ok 256 bs -> length bs = WORD_BYTES -> prim_to_le_bytes WORD_BYTES (num 256 bs) = bs.
Proof.
  intros H L. apply (num_inj 256); auto using to_le_ok; [lia|rewrite to_le_length; auto|].
  apply to_le_num_word. apply num_word; auto. lia.
Qed.

Lemma raw_to_ascii_spec bs case : Forall (vdig case) bs -> length bs = WORD_BYTES ->
  digit_chunk_raw_to_ascii be bs case = Ok (map (asc case) bs).
Proof.
  intros V L. unfold digit_chunk_raw_to_ascii. unfold DIGIT_CHUNK_LEN.
  rewrite check_true by (apply Nat.eqb_eq; auto). cbv zeta.
  set (l := if be then rev bs else bs).
  assert (Vl : Forall (vdig case) l) by (unfold l; destruct be; auto using Forall_rev).
  assert (Ll : length l = WORD_BYTES) by (unfold l; destruct be; [rewrite rev_length|]; auto).
  assert (El : word_from_ne_bytes be bs = num 256 l).
  { unfold word_from_ne_bytes, l. destruct be; [apply from_be_num|apply from_le_num]. }
  rewrite El. destruct (chunk_num l case Vl Ll) as (w & E & Ew).
  match type of E with bind ?m ?k = _ => destruct m as [x|p]; [cbn [bind] in E|discriminate] end. cbn [bind].
  destruct (word_chk (ALL_ONES * 48)) as [k|p]; [cbn [bind] in *|discriminate].
  destruct (word_chk (x + k)) as [y|p]; [cbn [bind] in *|discriminate]. injection E as ->. f_equal. rewrite Ew.
  assert (D : digits_ok 256 (map (asc case) l)).
  { eapply digits_map; [exact Vl|]. intros z Hz. pose proof (asc_byte case z Hz). lia. }
  assert (Lm : length (map (asc case) l) = WORD_BYTES) by (rewrite map_length; auto).
  unfold word_to_ne_bytes, prim_to_be_bytes. unfold l in *. destruct be; rewrite to_le_of_num by auto; auto.
  rewrite map_rev, rev_involutive. reflexivity.
Qed.

(** Buffer length. *)
Lemma BUFFER_LEN_eq : BUFFER_LEN = 32%nat.
Proof. unfold BUFFER_LEN, DIGIT_CHUNK_LEN, WORD_BYTES. destruct wbits_cases as [-> | [-> | ->]]; reflexivity. Qed.
Lemma chunk_cases : DIGIT_CHUNK_LEN = 2%nat \/ DIGIT_CHUNK_LEN = 4%nat \/ DIGIT_CHUNK_LEN = 8%nat.
Proof. unfold DIGIT_CHUNK_LEN, WORD_BYTES. destruct wbits_cases as [-> | [-> | ->]]; auto. Qed.

Lemma rounded_spec n : (n <= 32)%nat ->
  exists k, Z.to_nat (round_up (Z.of_nat n) (Z.of_nat DIGIT_CHUNK_LEN)) = (k * DIGIT_CHUNK_LEN)%nat /\
    (n <= k * DIGIT_CHUNK_LEN <= 32)%nat.
Proof.
  intros H. unfold round_up, ceil_div.
  destruct (Z.eqb_spec (Z.of_nat n) 0). { exists 0%nat. cbn. lia. }
  exists (Z.to_nat ((Z.of_nat n - 1) / Z.of_nat DIGIT_CHUNK_LEN + 1)).
  destruct chunk_cases as [-> | [-> | ->]]; cbn [Z.of_nat Pos.of_succ_nat Pos.succ]; dlia.
Qed.

Lemma ascii_chunks_spec case k : forall fuel bs, Forall (vdig case) bs -> length bs = (k * DIGIT_CHUNK_LEN)%nat -> (k <= fuel)%nat ->
  ascii_chunks be fuel bs case = Ok (map (asc case) bs).
Proof.
  assert (P : (0 < DIGIT_CHUNK_LEN)%nat) by (destruct chunk_cases as [-> | [-> | ->]]; lia).
  induction k as [|k IH]; intros fuel bs V L F.
  - destruct bs; [|discriminate]. unfold ascii_chunks. destruct fuel; cbn [length]; rewrite (proj2 (Nat.ltb_lt _ _)) by lia; reflexivity.
  - destruct fuel as [|fuel]; [lia|]. cbn [ascii_chunks].
    rewrite (proj2 (Nat.ltb_ge _ _)) by lia. rewrite <- (firstn_skipn DIGIT_CHUNK_LEN bs) in V. apply Forall_app in V as [V1 V2].
    rewrite raw_to_ascii_spec; [|auto|rewrite firstn_length; fold DIGIT_CHUNK_LEN; lia]. cbn [bind].
    rewrite IH; [|auto|rewrite skipn_length; lia|lia]. cbn [bind]. rewrite <- map_app, firstn_skipn. reflexivity.
Qed.

(** The writer holds [pend] in its buffer. *)
Definition dw_holds (w : DigitWriter) (pend : list Z) : Prop :=
  length (dw_buffer w) = 32%nat /\ dw_len w = length pend /\ (length pend <= 32)%nat /\
  firstn (dw_len w) (dw_buffer w) = pend /\ Forall (vdig (dw_case w)) pend.

Lemma flush_spec w pend : dw_holds w pend ->
  exists w', dw_flush be w = Ok w' /\ dw_holds w' [] /\ dw_case w' = dw_case w /\ dw_out w' = dw_out w ++ map (asc (dw_case w)) pend.
Proof.
  intros (L & E1 & E2 & E3 & V). unfold dw_flush. destruct (rounded_spec (dw_len w)) as (k & Ek & Hk); [lia|].
  rewrite Ek. rewrite check_true by (apply Nat.leb_le; lia). unfold copy_into. rewrite repeat_length, L.
  rewrite check_true by (apply Nat.leb_le; lia). cbn [bind].
  set (n := (k * DIGIT_CHUNK_LEN)%nat) in *. rewrite E3. replace (dw_len w + (n - dw_len w))%nat with n by lia.
  set (h := pend ++ repeat 0 (n - dw_len w)).
  assert (Lh : length h = n) by (unfold h; rewrite app_length, repeat_length; lia).
  rewrite app_assoc. fold h. unfold split_at. rewrite app_length, Lh, skipn_length, L.
  rewrite (proj2 (Nat.leb_le n _)) by lia. cbn [bind].
  assert (Ef : forall t, firstn n (h ++ t) = h).
  { intros t. rewrite <- Lh, firstn_app, Nat.sub_diag, firstn_O, app_nil_r, firstn_all. reflexivity. }
  assert (Es : forall t, skipn n (h ++ t) = t).
  { intros t. rewrite <- Lh, skipn_app, skipn_all, Nat.sub_diag, skipn_O. reflexivity. }
  rewrite Ef, Es.
  assert (0 < DIGIT_CHUNK_LEN)%nat by (destruct chunk_cases as [-> | [-> | ->]]; lia).
  rewrite (ascii_chunks_spec (dw_case w) k); [|unfold h; apply Forall_app; split; auto|auto|nia].
  2:{ apply Forall_forall. intros x I. apply repeat_spec in I. subst. red. destruct (dw_case w); lia. }
  cbn [bind]. unfold slice_to. rewrite app_length, map_length, Lh, skipn_length, L.
  rewrite (proj2 (Nat.leb_le _ _)) by lia. cbn [bind].
  eexists. split; [reflexivity|]. unfold dw_holds. cbn [dw_buffer dw_len dw_case dw_out length firstn].
  split; [|split; [reflexivity|]].
  - repeat split; auto; try lia. rewrite app_length, map_length, skipn_length. lia.
  - f_equal. unfold h. rewrite map_app, <- app_assoc. rewrite E1, firstn_app, map_length, Nat.sub_diag, firstn_O, app_nil_r.
    apply firstn_all2. rewrite map_length. lia.
Qed.

(** The writer has been given the digits [raw] since [out] was written. *)
Definition dw_inv (case : digit_case) (out : list Z) (w : DigitWriter) (raw : list Z) : Prop :=
  dw_case w = case /\ exists done pend, raw = done ++ pend /\ dw_holds w pend /\ (length pend < 32)%nat /\
    dw_out w = out ++ map (asc case) done.

Lemma dw_new_inv case out : dw_inv case out (dw_new out case) [].
Proof.
  split; [reflexivity|]. exists [], []. unfold dw_holds. cbn [dw_new dw_buffer dw_len dw_out map length app firstn].
  rewrite repeat_length, BUFFER_LEN_eq, app_nil_r. repeat split; auto; lia.
Qed.

Lemma write_loop_spec case out fuel : forall w raw buf, dw_inv case out w raw -> Forall (vdig case) buf -> (length buf <= fuel)%nat ->
  exists w', dw_write_loop be fuel w buf = Ok w' /\ dw_inv case out w' (raw ++ buf).
Proof.
  induction fuel as [|fuel IH]; intros w raw buf I V F.
  { destruct buf; [|cbn in F; lia]. exists w. rewrite app_nil_r. auto. }
  destruct buf as [|b0 buf0] eqn:Eb. { exists w. rewrite app_nil_r. auto. }
  rewrite <- Eb in *. assert (0 < length buf)%nat by (rewrite Eb; cbn; lia).
  assert (E : dw_write_loop be (S fuel) w buf =
    (check (dw_len w <=? BUFFER_LEN)%nat ;;
          let len := Nat.min (length buf) (BUFFER_LEN - dw_len w) in
          '(buf_chunk, buf) <- split_at len buf ;;
          buffer <- copy_into (dw_len w) buf_chunk (dw_buffer w) ;;
          let w := mkDigitWriter buffer (dw_len w + len) (dw_case w) (dw_out w) in
          w <- (if (dw_len w =? BUFFER_LEN)%nat then dw_flush be w else Ok w) ;;
          dw_write_loop be fuel w buf)).
  { rewrite Eb. reflexivity. }
  rewrite E. clear E Eb b0 buf0.
  destruct I as (Ec & don & pend & Er & (L & E1 & E2 & E3 & Vp) & Lp & Eo).
  rewrite BUFFER_LEN_eq. rewrite check_true by (apply Nat.leb_le; lia). cbv zeta.
  remember (Nat.min (length buf) (32 - dw_len w)) as n eqn:En. unfold split_at.
  rewrite (proj2 (Nat.leb_le _ _)) by lia. cbn [bind]. unfold copy_into.
  assert (Ln : length (firstn n buf) = n) by (rewrite firstn_length; lia).
  rewrite Ln, L, check_true by (apply Nat.leb_le; lia). cbn [bind dw_len].
  rewrite <- (firstn_skipn n buf) in V. apply Forall_app in V as [V1 V2].
  assert (Lb : length (firstn (dw_len w) (dw_buffer w)) = dw_len w) by (rewrite firstn_length; lia).
  set (w1 := mkDigitWriter _ _ _ _).
  assert (H1 : dw_holds w1 (pend ++ firstn n buf)).
  { unfold dw_holds, w1. cbn [dw_buffer dw_len dw_case]. rewrite !app_length, Lb, Ln, skipn_length, L. repeat split; try lia.
    - rewrite app_assoc, firstn_app, app_length, Lb, Ln, Nat.sub_diag, firstn_O, app_nil_r.
      rewrite firstn_all2 by (rewrite app_length; lia). rewrite E3. reflexivity.
    - apply Forall_app. split; auto. congruence. }
  assert (G : exists w2, (if (dw_len w + n =? 32)%nat then dw_flush be w1 else Ok w1) = Ok w2 /\ dw_inv case out w2 (raw ++ firstn n buf)).
  { destruct (Nat.eqb_spec (dw_len w + n) 32).
    - destruct (flush_spec w1 _ H1) as (w2 & -> & H2 & H3 & H4). exists w2. split; [reflexivity|]. split; [rewrite H3; exact Ec|].
      exists (raw ++ firstn n buf), []. rewrite app_nil_r. repeat split; try apply H2; cbn [length]; try lia.
      rewrite H4. unfold w1 at 1 2. cbn [dw_out dw_case]. rewrite Eo, Er, Ec, <- app_assoc, <- map_app. f_equal. f_equal.
      rewrite app_assoc. reflexivity.
    - exists w1. split; [reflexivity|]. split; [exact Ec|]. exists don, (pend ++ firstn n buf).
      split; [rewrite Er, app_assoc; reflexivity|]. split; [exact H1|]. split; [rewrite app_length, Ln; lia|exact Eo]. }
  destruct G as (w2 & -> & H2). cbn [bind].
  destruct (IH w2 _ (skipn n buf) H2 V2) as (w' & -> & H3); [rewrite skipn_length; lia|].
  exists w'. split; [reflexivity|]. rewrite <- app_assoc, firstn_skipn in H3. exact H3.
Qed.

Lemma write_spec case out w raw buf : dw_inv case out w raw -> Forall (vdig case) buf ->
  exists w', dw_write be w buf = Ok w' /\ dw_inv case out w' (raw ++ buf).
Proof. intros. apply write_loop_spec; auto. Qed.

Lemma finish_spec case out w raw : dw_inv case out w raw ->
  exists w', dw_flush be w = Ok w' /\ dw_out w' = out ++ map (asc case) raw.
Proof.
  intros (Ec & don & pend & -> & H & _ & Eo). destruct (flush_spec w pend H) as (w' & -> & _ & _ & E).
  exists w'. split; [reflexivity|]. rewrite E, Eo, Ec, map_app, app_assoc. reflexivity.
Qed.

End DigitWriterProofs.
