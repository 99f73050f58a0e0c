(** Formatting of rings and their elements. *)
From Verif Require Import Model.Base Model.Words Model.Buffer Model.UBig Model.Fmt Model.Modular Model.ModularFmt
  Spec.Val Spec.Num Spec.Digits Spec.FmtText Spec.Modular Spec.ModularText
  Proofs.Basics Proofs.DigitsProofs Proofs.FmtRound Proofs.ModularProofs Proofs.ModularApi.
From Coq Require Import Lia.

(** ** Primitive integers *)

Lemma core_char up d : 0 <= d -> (if d <? 10 then 48 + d else (if up : bool then 55 else 87) + d) = digit_text up d.
Proof. intros H. unfold digit_text. destruct (Z.ltb_spec d 10), (Z.leb_spec d 9); try lia. destruct up; lia. Qed.

Lemma num_rev_snoc radix ds d : num radix (rev (ds ++ [d])) = d + radix * num radix (rev ds).
Proof. rewrite rev_app_distr. reflexivity. Qed.

Lemma core_digits_S fuel radix up w acc : 0 < radix ->
  core_digits (S fuel) radix up w acc =
  if w / radix =? 0 then Ok (digit_text up (w mod radix) :: acc)
  else core_digits fuel radix up (w / radix) (digit_text up (w mod radix) :: acc).
Proof. intros H. cbn [core_digits]. rewrite core_char by (apply Z.mod_pos_bound; lia). reflexivity. Qed.

Lemma core_digits_spec fuel : forall radix up w acc, 2 <= radix -> 0 <= w < radix ^ Z.of_nat (S fuel) ->
  exists ds, canonical radix w ds /\ core_digits (S fuel) radix up w acc = Ok (map (digit_text up) ds ++ acc).
Proof.
  induction fuel as [|fuel IH]; intros radix up w acc Hr Hw; rewrite core_digits_S by lia;
    pose proof (Z.mod_pos_bound w radix ltac:(lia)) as Hm; pose proof (Z.div_mod w radix ltac:(lia)) as Hd;
    destruct (Z.eqb_spec (w / radix) 0) as [E|E].
  1,3: exists [w mod radix]; split; [|reflexivity]; split; [repeat constructor; lia|];
    split; [cbn; lia|]; cbn [hd]; destruct (Z.eq_dec (w mod radix) 0) as [E0|]; [left; rewrite E0; reflexivity|right; assumption].
  - exfalso. apply E. apply Z.div_small. change (Z.of_nat 1) with 1 in Hw. rewrite Z.pow_1_r in Hw. exact Hw.
  - assert (Hq : 0 <= w / radix < radix ^ Z.of_nat (S fuel)).
    { split; [apply Z.div_pos; lia|]. apply Z.div_lt_upper_bound; [lia|].
      rewrite (Nat2Z.inj_succ (S fuel)), Z.pow_succ_r in Hw by lia. lia. }
    destruct (IH radix up (w / radix) (digit_text up (w mod radix) :: acc) Hr Hq) as (ds & (D & N & C) & Eq).
    exists (ds ++ [w mod radix]). split.
    + split; [apply Forall_app; split; [exact D|repeat constructor; lia]|]. split; [rewrite num_rev_snoc, N; lia|].
      right. destruct C as [->|C]; [exfalso; cbn [rev app num] in N; lia|]. destruct ds; [cbn in C; congruence|exact C].
    + rewrite Eq, map_app, <- app_assoc. reflexivity.
Qed.

Lemma pad_integral_spec f c dig : width_ok f ->
  pad_integral f c dig = padded f (sign_text false (f_sign_plus f)) (if f_alternate f then c else []) dig.
Proof.
  intros HW. unfold pad_integral, padded, sign_text. set (sg := if f_sign_plus f then [43] else []). set (p := if f_alternate f then c else []).
  replace (length (sg ++ p ++ dig)) with (length (sg ++ p) + length dig)%nat by (rewrite !app_length; lia).
  set (n := (length (sg ++ p) + length dig)%nat). destruct (f_width f) as [w|] eqn:EW.
  - pose proof (HW w EW). destruct (Z.leb_spec w (Z.of_nat n)).
    + replace (Z.to_nat w - n)%nat with 0%nat by lia. destruct (f_zero_pad f); [rewrite <- app_assoc; reflexivity|].
      replace (left_fill (f_align f) 0) with 0%nat by (destruct (f_align f) as [[]|]; reflexivity).
      cbn [repeat app Nat.sub]. rewrite app_nil_r, <- app_assoc. reflexivity.
    + replace (Z.to_nat (w - Z.of_nat n)) with (Z.to_nat w - n)%nat by lia.
      destruct (f_zero_pad f); [rewrite <- app_assoc; reflexivity|].
      set (pre := match f_align f with Some AlignLeft => 0 | _ => _ end).
      assert (EP : Z.to_nat pre = left_fill (f_align f) (Z.to_nat w - n) /\ 0 <= pre <= w - Z.of_nat n).
      { unfold pre, left_fill. destruct (f_align f) as [[]|]; (split; [try reflexivity|]; lia). }
      destruct EP as [<- EP]. replace (Z.to_nat (w - Z.of_nat n - pre)) with (Z.to_nat w - n - Z.to_nat pre)%nat by lia.
      rewrite <- !app_assoc. reflexivity.
  - destruct (f_zero_pad f); cbn [Nat.sub repeat app]; [rewrite <- app_assoc; reflexivity|].
    replace (left_fill (f_align f) 0) with 0%nat by (destruct (f_align f) as [[]|]; reflexivity).
    cbn [repeat app Nat.sub]. rewrite app_nil_r, <- app_assoc. reflexivity.
Qed.

Section ModularFmt.
Context {A : Arch} {AOK : ArchOk A} (be : bool).

Lemma core_fmt_shows radix up c w f : 2 <= radix -> 0 <= w < B -> width_ok f ->
  shows (core_fmt_radix radix up c w f) f radix up (if f_alternate f then c else []) w.
Proof.
  intros Hr Hw HW. pose proof wbits_ge as Hb. unfold core_fmt_radix. destruct (Z.to_nat wbits) as [|k] eqn:Ek; [lia|].
  destruct (core_digits_spec k radix up w [] Hr) as (ds & C & E).
  { rewrite <- Ek, Z2Nat.id by lia. split; [lia|]. apply (Z.lt_le_trans _ B); [lia|]. unfold B. apply Z.pow_le_mono_l. lia. }
  rewrite E. cbn [bind]. rewrite app_nil_r. exists ds. rewrite Z.abs_eq by lia. split; [exact C|].
  rewrite (proj2 (Z.ltb_ge w 0)) by lia. rewrite pad_integral_spec by auto. reflexivity.
Qed.

Definition effective (dh : option bool) (t : fmt_trait) : fmt_trait := match t with TDebug => debug_trait dh | _ => t end.

Lemma shows_ok m f r up p v : shows m f r up p v -> exists s, m = Ok s /\ shows (Ok s) f r up p v.
Proof. intros (ds & C & ->). eexists. split; [reflexivity|]. exists ds. auto. Qed.

Lemma shows_nil f (m : res (list Z)) r up v : shows m f r up (if f_alternate f then [] else []) v -> shows m f r up [] v.
Proof. destruct (f_alternate f); auto. Qed.

Lemma word_fmt_spec dh t w f : 0 <= w < B -> width_ok f -> exists s, word_fmt dh t w f = Ok s /\ trait_text (effective dh t) f w s.
Proof.
  intros Hw HW. unfold trait_text, word_fmt, effective.
  destruct t; [| destruct dh as [[]|] | | | |]; cbn [debug_trait trait_radix trait_upper trait_prefix]; apply shows_ok;
    try (apply shows_nil); unfold alt_prefix; apply core_fmt_shows; auto; lia.
Qed.

Lemma ubig_fmt_spec t u f : ubig_ok u -> width_ok f -> exists s, ubig_fmt be t u f = Ok s /\ trait_text t f (uval u) s.
Proof.
  intros Hu HW. destruct (ubig_shows be u f Hu HW) as (H1 & H2 & H3 & H4 & H5 & H6). unfold trait_text.
  destruct t; cbn [ubig_fmt trait_radix trait_upper trait_prefix]; apply shows_ok; assumption.
Qed.

Lemma trait_debug f v s : trait_text TDebug f v s = trait_text TDisplay f v s.
Proof. reflexivity. Qed.

(** The trait that decides how a ring of either kind is shown. *)
Definition ring_trait (dh : option bool) (t : fmt_trait) (r : ring) : fmt_trait :=
  match r with RingSmall _ => effective dh t | RingLarge _ => t end.

Lemma ring_fmt_spec dh t r n f : is_ring r n -> width_ok f -> ring_text (ring_trait dh t r) f n (ring_fmt be dh t r f).
Proof.
  intros Hr HW. destruct r as [r|r]; cbn [ring_fmt ring_trait].
  - apply is_ring_small in Hr as (Hn & Hs & EM & _). unfold ring_small_fmt, ring_small_modulus, shr_w.
    rewrite Z.shiftr_div_pow2, EM, Z.div_mul by lia. destruct (word_fmt_spec dh t n f) as (s & E & T); [lia|auto|].
    rewrite E. cbn [bind]. exists s. auto.
  - destruct (ring_modulus_spec _ n Hr) as (u & E & Hu & V). cbn [ring_modulus] in E. unfold ring_large_fmt. rewrite E. cbn [bind].
    destruct (ubig_fmt_spec t u f Hu HW) as (s & -> & T). cbn [bind]. rewrite V in T. exists s. auto.
Qed.

Lemma element_fmt_spec dh t r n x a f : element r n x a -> width_ok f ->
  element_text (ring_trait dh t r) f n a (modulo_fmt be dh t x f).
Proof.
  intros H HW. pose proof (element_ring _ _ _ _ H) as Hr. pose proof (ring_fmt_spec dh t r n f Hr HW) as (sn & Tn & En).
  destruct r as [r|r]; cbn [ring_fmt ring_trait] in *.
  - apply element_small in H as (R & raw & -> & H). cbn [modulo_fmt]. unfold modulo_small_fmt, small_residue. cbn [ms_raw ms_ring].
    rewrite (raw_of_residue r n R raw a H). cbn [bind]. destruct H as [_ H]. destruct R as [R _].
    destruct (word_fmt_spec dh t a f) as (s & E & T); [lia|auto|]. rewrite E. cbn [bind]. rewrite En. cbn [bind].
    exists s, sn. split; [exact T|]. split; [exact Tn|]. reflexivity.
  - pose proof (residue_spec _ _ _ _ H) as (u & E & Hu & V). apply element_large in H as (R & ws & -> & H).
    cbn [modulo_fmt residue] in *. unfold modulo_large_fmt. rewrite E. cbn [bind].
    destruct (ubig_fmt_spec t u f Hu HW) as (s & -> & T). cbn [bind ml_ring]. rewrite En. cbn [bind]. rewrite V in T.
    exists s, sn. split; [exact T|]. split; [exact Tn|]. reflexivity.
Qed.

Theorem ring_shows dh t r n f : is_ring r n -> width_ok f -> t <> TDebug \/ dh = None -> ring_text t f n (ring_fmt be dh t r f).
Proof.
  intros Hr HW Hd. pose proof (ring_fmt_spec dh t r n f Hr HW) as H.
  destruct r; cbn [ring_trait] in H; [|exact H]. destruct t; try exact H. destruct Hd as [Hd| ->]; [congruence|exact H].
Qed.

Theorem element_shows dh t r n x a f : element r n x a -> width_ok f -> t <> TDebug \/ dh = None ->
  element_text t f n a (modulo_fmt be dh t x f).
Proof.
  intros Hr HW Hd. pose proof (element_fmt_spec dh t r n x a f Hr HW) as H.
  destruct r; cbn [ring_trait] in H; [|exact H]. destruct t; try exact H. destruct Hd as [Hd| ->]; [congruence|exact H].
Qed.

Theorem debug_hex_shows up r n x a f : element r n x a -> width_ok f ->
  (n < B -> element_text (debug_trait (Some up)) f n a (modulo_fmt be (Some up) TDebug x f)) /\
  (B <= n -> element_text TDisplay f n a (modulo_fmt be (Some up) TDebug x f)).
Proof.
  intros H HW. pose proof (element_fmt_spec (Some up) TDebug r n x a f H HW) as K. pose proof (element_ring _ _ _ _ H) as Hr.
  destruct r as [r|r]; cbn [ring_trait effective] in K.
  - apply is_ring_small in Hr as (Hn & _). split; [intros _; exact K|lia].
  - apply is_ring_large in Hr as (Hn & _). split; [lia|intros _; exact K].
Qed.

(** The ring modulo ten is shown as "mod a". *)
Theorem debug_hex_differs : exists r n f, is_ring r n /\ width_ok f /\
  ring_fmt be (Some false) TDebug r f <> ring_fmt be (Some false) TDisplay r f.
Proof.
  pose proof wbits_ge as Hw.
  assert (HB : 10 < B) by (unfold B; apply (Z.lt_le_trans _ (2 ^ 4)); [reflexivity|apply Z.pow_le_mono_r; lia]).
  assert (Hu : ubig_ok (Small 10)) by (cbn; lia). destruct (ring_new_ring 0 (Small 10) Hu) as (r & E & Hr & _); [cbn; lia|].
  cbn [uval] in Hr. set (f := mkFormatter 32 None None false false false). assert (HW : width_ok f) by discriminate.
  exists r, 10, f. split; [exact Hr|]. split; [exact HW|]. destruct r as [r|r]; [|apply is_ring_large in Hr as (Hn & _); lia].
  pose proof (ring_fmt_spec (Some false) TDebug _ _ f Hr HW) as (s1 & (d1 & C1 & E1) & ->).
  pose proof (ring_fmt_spec (Some false) TDisplay _ _ f Hr HW) as (s2 & (d2 & C2 & E2) & ->).
  cbn [ring_trait effective debug_trait trait_radix] in C1, C2.
  rewrite (canonical_unique 16 (Z.abs 10) d1 [10]) in E1; [|lia|exact C1|repeat split; [repeat constructor; lia|right; discriminate]].
  rewrite (canonical_unique 10 (Z.abs 10) d2 [1; 0]) in E2; [|lia|exact C2|repeat split; [repeat constructor; lia|right; discriminate]].
  injection E1 as ->. injection E2 as ->. discriminate.
Qed.

End ModularFmt.
