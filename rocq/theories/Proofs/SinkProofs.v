(** Formatting into sinks that may report errors: the calls made do not depend on the
    sink, and their text is what Model/Fmt.v says. *)
From Verif Require Import Model.Base Model.Words Model.FastDivide Model.DivWord Model.Buffer Model.UBig Model.IBig
  Model.DivOps Model.Radix Model.Fmt Model.Modular Model.ModularFmt Model.Sink
  Spec.Val Spec.Num Spec.Digits Spec.FmtText Spec.Modular Spec.ModularText Spec.Sinks
  Proofs.Basics Proofs.BufferProofs Proofs.DigitsProofs Proofs.RadixProofs
  Proofs.ParseApi Proofs.DigitWriterProofs Proofs.FmtProofs Proofs.FmtApi Proofs.FmtRound Proofs.ModularProofs Proofs.ModularApi Proofs.ModularFmtProofs.
From Coq Require Import Lia.

Lemma text_of_app ps qs : text_of (ps ++ qs) = text_of ps ++ text_of qs.
Proof. unfold text_of. rewrite map_app, concat_app. reflexivity. Qed.

Definition after {W P T : Type} (put : W -> P -> W * bool) (s : W) (ps : list P) (k : W -> T) : wres W T :=
  let (s', ok) := feed put s ps in if ok then Done (k s') else Failed s'.

Lemma feed_app {W P} (put : W -> P -> W * bool) ps qs : forall s,
  feed put s (ps ++ qs) = let (s', ok) := feed put s ps in if ok then feed put s' qs else (s', false).
Proof.
  induction ps as [|p ps IH]; intros s; cbn [feed app]; [reflexivity|].
  destruct (put s p) as [s' []]; [apply IH|reflexivity].
Qed.

Lemma after_bind {W P T U} (put : W -> P -> W * bool) s ps qs (k : W -> T) (k' : W -> U) (K : T -> res (wres W U)) :
  (forall s', K (k s') = Ok (after put s' qs k')) -> wbind (Ok (after put s ps k)) K = Ok (after put s (ps ++ qs) k').
Proof.
  intros H. unfold after at 1. unfold wbind. cbn [bind]. unfold after. rewrite feed_app.
  destruct (feed put s ps) as [s' []]; [|reflexivity]. rewrite H. reflexivity.
Qed.

Lemma emit_after {W P} (put : W -> P -> W * bool) s p : emit put s p = Ok (after put s [p] (fun s => s)).
Proof. unfold emit, after. cbn [feed]. destruct (put s p) as [s' []]; reflexivity. Qed.

Lemma done_after {W P T} (put : W -> P -> W * bool) s (k : W -> T) : Ok (Done (k s)) = Ok (after put s [] k).
Proof. reflexivity. Qed.

Lemma emit_many_after {W} (put : W -> piece -> W * bool) p n : forall s,
  emit_many put n p s = Ok (after put s (repeat p n) (fun s => s)).
Proof.
  induction n as [|n IH]; intros s; cbn [emit_many repeat]; [reflexivity|].
  rewrite emit_after. apply (after_bind put s [p]). intros s'. apply IH.
Qed.

Lemma text_of_chars c n : text_of (repeat (PChar c) n) = repeat c n.
Proof. induction n as [|n IH]; [reflexivity|]. cbn [repeat]. change (c :: text_of (repeat (PChar c) n) = c :: repeat c n). rewrite IH. reflexivity. Qed.
Lemma text_of_strs c n : text_of (repeat (PStr [c]) n) = repeat c n.
Proof. induction n as [|n IH]; [reflexivity|]. cbn [repeat]. change (c :: text_of (repeat (PStr [c]) n) = c :: repeat c n). rewrite IH. reflexivity. Qed.

(** ** Digit writers *)

Definition attach {W : Type} (w : DigitWriter) (s : W) : SinkWriter := mkSinkWriter (dw_buffer w) (dw_len w) (dw_case w) s.
Definition reout (w : DigitWriter) (o : list Z) : DigitWriter := mkDigitWriter (dw_buffer w) (dw_len w) (dw_case w) o.

Definition writer_to : Type := forall W : Type, (W -> piece -> W * bool) -> @SinkWriter W -> res (wres W (@SinkWriter W)).

Definition sim (F0 : DigitWriter -> res DigitWriter) (F : writer_to) : Prop :=
  forall w w', F0 w = Ok w' -> exists ps,
    (forall o, F0 (reout w o) = Ok (reout w' (o ++ text_of ps))) /\
    forall W put (s : W), F W put (attach w s) = Ok (after put s ps (attach w')).

Lemma sim_ret : sim (fun w => Ok w) (fun W put w => Ok (Done w)).
Proof.
  intros w w' E. injection E as <-. exists []. split.
  - intros o. cbn. rewrite app_nil_r. reflexivity.
  - intros W put s. reflexivity.
Qed.

Lemma sim_panic p (F : writer_to) : sim (fun w => Panic p) F.
Proof. intros w w' E. discriminate. Qed.

Lemma sim_bind G0 (G : writer_to) H0 (H : writer_to) : sim G0 G -> sim H0 H ->
  sim (fun w => w <- G0 w ;; H0 w) (fun W put w => w <~ G W put w ;; H W put w).
Proof.
  intros SG SH w w' E. destruct (G0 w) as [w1|] eqn:E1; [|discriminate]. cbn [bind] in E.
  destruct (SG _ _ E1) as (ps & P0 & P). destruct (SH _ _ E) as (qs & Q0 & Q). exists (ps ++ qs). split.
  - intros o. rewrite P0. cbn [bind]. rewrite Q0, text_of_app, app_assoc. reflexivity.
  - intros W put s. rewrite P. apply after_bind. intros s'. apply Q.
Qed.

Lemma sim_res {X} (m : res X) F0 (F : X -> writer_to) : (forall x, m = Ok x -> sim (F0 x) (F x)) ->
  sim (fun w => x <- m ;; F0 x w) (fun W put w => x <- m ;; F x W put w).
Proof.
  intros H w w' E. destruct m as [x|]; [|discriminate]. cbn [bind] in *. exact (H x eq_refl w w' E).
Qed.

Section Sink.
Context {A : Arch} {AOK : ArchOk A} (be : bool).

Lemma flush_sim : sim (dw_flush be) (fun W put => sw_flush be put).
Proof.
  intros [b n c out] w' E. unfold dw_flush in E. cbn [dw_buffer dw_len dw_case dw_out] in E.
  set (rounded := Z.to_nat _) in E.
  destruct (assert (n <=? rounded)%nat) as [[]|] eqn:E0; [|discriminate]. cbn [bind] in E.
  destruct (copy_into _ _ b) as [buf|] eqn:E1; [|discriminate]. cbn [bind] in E.
  destruct (split_at rounded buf) as [[hd tl]|] eqn:E2; [|discriminate]. cbn [bind] in E.
  destruct (ascii_chunks be rounded hd c) as [hd'|] eqn:E3; [|discriminate]. cbn [bind] in E.
  destruct (slice_to n (hd' ++ tl)) as [s|] eqn:E4; [|discriminate]. cbn [bind] in E. injection E as <-.
  exists [PStr s]. split.
  - intros o. unfold dw_flush, reout. cbn [dw_buffer dw_len dw_case dw_out]. fold rounded. rewrite E0. cbn [bind].
    rewrite E1. cbn [bind]. rewrite E2. cbn [bind]. rewrite E3. cbn [bind]. rewrite E4. cbn [bind].
    unfold text_of. cbn [map concat piece_text]. rewrite app_nil_r. reflexivity.
  - intros W put s0. unfold sw_flush, attach. cbn [sw_buffer sw_len sw_case sw_writer dw_buffer dw_len dw_case]. fold rounded.
    rewrite E0. cbn [bind]. rewrite E1. cbn [bind]. rewrite E2. cbn [bind]. rewrite E3. cbn [bind]. rewrite E4. cbn [bind].
    rewrite emit_after. apply (after_bind put s0 [PStr s] []). intros s'. reflexivity.
Qed.

Lemma write_loop_sim fuel : forall buf, sim (fun w => dw_write_loop be fuel w buf) (fun W put w => sw_write_loop be put fuel w buf).
Proof.
  induction fuel as [|fuel IH]; intros [|x buf]; try apply sim_ret; [apply sim_panic|].
  intros [b n c out] w' E. cbn [dw_write_loop dw_buffer dw_len dw_case dw_out] in E.
  destruct (assert (n <=? BUFFER_LEN)%nat) as [[]|] eqn:E0; [|discriminate]. cbn [bind] in E.
  destruct (split_at _ (x :: buf)) as [[ck rest]|] eqn:E1; [|discriminate]. cbn [bind] in E.
  destruct (copy_into n ck b) as [b'|] eqn:E2; [|discriminate]. cbn [bind dw_len] in E.
  set (n' := (n + _)%nat) in E.
  assert (SF : sim (fun w => if (dw_len w =? BUFFER_LEN)%nat then dw_flush be w else Ok w)
                   (fun W put w => if (sw_len w =? BUFFER_LEN)%nat then sw_flush be put w else Ok (Done w))).
  { intros u u' Eu. destruct (dw_len u =? BUFFER_LEN)%nat eqn:C.
    - destruct (flush_sim u u' Eu) as (ps & P0 & P). exists ps. cbn [reout dw_len attach sw_len]. rewrite C. split; assumption.
    - destruct (sim_ret u u' Eu) as (ps & P0 & P). exists ps. cbn [reout dw_len attach sw_len]. rewrite C. split; assumption. }
  destruct (sim_bind _ _ _ _ SF (IH rest) (mkDigitWriter b' n' c out) w' E) as (ps & P0 & P). exists ps. split.
  - intros o. cbn [dw_write_loop reout dw_buffer dw_len dw_case dw_out]. rewrite E0. cbn [bind]. rewrite E1. cbn [bind].
    rewrite E2. cbn [bind]. fold n'. exact (P0 o).
  - intros W put s. cbn [sw_write_loop attach dw_buffer dw_len dw_case sw_buffer sw_len sw_case sw_writer]. rewrite E0. cbn [bind].
    rewrite E1. cbn [bind]. rewrite E2. cbn [bind]. fold n'. exact (P W put s).
Qed.

Lemma write_sim buf : sim (fun w => dw_write be w buf) (fun W put w => sw_write be put w buf).
Proof. apply write_loop_sim. Qed.

(** ** Prepared numbers *)

Lemma p2w_sim p : sim (p2w_write be p) (fun W put => p2w_write_to be put p).
Proof.
  unfold p2w_write, p2w_write_to. apply (sim_res _ _ (fun digits W put w => s <- _ ;; sw_write be put w s)). intros ds _.
  apply (sim_res _ _ (fun s W put w => sw_write be put w s)). intros s _. apply write_sim.
Qed.

Lemma p2l_loop_sim lr fuel : forall it word bits,
  sim (p2l_loop be fuel it word bits lr) (fun W put => p2l_loop_to be put fuel it word bits lr).
Proof.
  induction fuel as [|fuel IH]; intros it word bits; [apply sim_panic|]. cbn [p2l_loop p2l_loop_to].
  destruct (bits <? lr).
  - destruct it as [|x it].
    + apply (sim_res _ (fun _ w => Ok w) (fun _ W put w => Ok (Done w))). intros _ _. apply sim_ret.
    + apply (sim_res _ _ (fun bits W put w => check _ ;; w <~ sw_write be put w _ ;; p2l_loop_to be put fuel it x bits lr w)). intros b1 _.
      apply (sim_res _ _ (fun _ W put w => w <~ sw_write be put w _ ;; p2l_loop_to be put fuel it x b1 lr w)). intros _ _.
      apply (sim_bind _ (fun W put w => sw_write be put w _) _ (fun W put w => p2l_loop_to be put fuel it x b1 lr w)); [apply write_sim|apply IH].
  - apply (sim_res _ _ (fun _ W put w => w <~ sw_write be put w _ ;; p2l_loop_to be put fuel it word _ lr w)). intros _ _.
    apply (sim_bind _ (fun W put w => sw_write be put w _) _ (fun W put w => p2l_loop_to be put fuel it word _ lr w)); [apply write_sim|apply IH].
Qed.

Lemma p2l_sim p : sim (p2l_write be p) (fun W put => p2l_write_to be put p).
Proof.
  unfold p2l_write, p2l_write_to. destruct (rev (p2l_words p)) as [|word it]; [apply sim_panic|].
  apply (sim_res _ _ (fun a W put w => b <- _ ;; d <- usize_chk (a - b) ;; p2l_loop_to be put _ it word (d mod 2 ^ 32) _ w)). intros a _.
  apply (sim_res _ _ (fun b W put w => d <- usize_chk (a - b) ;; p2l_loop_to be put _ it word (d mod 2 ^ 32) _ w)). intros b _.
  apply (sim_res _ _ (fun d W put w => p2l_loop_to be put _ it word (d mod 2 ^ 32) _ w)). intros d _. apply p2l_loop_sim.
Qed.

Lemma npw_sim p : sim (npw_write be p) (fun W put => npw_write_to be put p).
Proof. unfold npw_write, npw_write_to. apply (sim_res _ _ (fun s W put w => sw_write be put w s)). intros s _. apply write_sim. Qed.

Lemma groups_sim radix dpw gs : sim (write_groups be gs radix dpw) (fun W put => write_groups_to be put gs radix dpw).
Proof.
  induction gs as [|g gs IH]; cbn [write_groups write_groups_to]; [apply sim_ret|].
  apply (sim_res _ _ (fun p W put w => w <~ npw_write_to be put p w ;; write_groups_to be put gs radix dpw w)). intros p _.
  apply (sim_bind _ (fun W put w => npw_write_to be put p w) _ (fun W put w => write_groups_to be put gs radix dpw w)); [apply npw_sim|apply IH].
Qed.

Lemma npm_sim p : sim (npm_write be p) (fun W put => npm_write_to be put p).
Proof.
  unfold npm_write, npm_write_to.
  apply (sim_res _ _ (fun ri W put w => w <~ npw_write_to be put (npm_top p) w ;; write_groups_to be put (rev (npm_low p)) (npm_radix p) (digits_per_word ri) w)).
  intros ri _.
  apply (sim_bind _ (fun W put w => npw_write_to be put (npm_top p) w) _ (fun W put w => write_groups_to be put _ _ _ w)); [apply npw_sim|apply groups_sim].
Qed.

Lemma chunk_sim radix x : sim (fun w => npl_write_chunk be radix w x) (fun W put w => npl_write_chunk_to be put radix w x).
Proof.
  intros w w' E. unfold npl_write_chunk in E.
  destruct (radix_info radix) as [ri|] eqn:E1; [|discriminate]. cbn [bind] in E.
  destruct (ubig_to_chunk_buffer x) as [buf|] eqn:E2; [|discriminate]. cbn [bind] in E.
  destruct (chunk_groups CHUNK_LEN ri buf) as [[gs b2]|] eqn:E3; [|discriminate]. cbn [bind] in E.
  destruct (assert (length b2 =? 0)%nat) as [[]|] eqn:E4; [|discriminate]. cbn [bind] in E.
  destruct (groups_sim radix (digits_per_word ri) (rev gs) w w' E) as (ps & P0 & P). exists ps. split.
  - intros o. unfold npl_write_chunk. rewrite E1. cbn [bind]. rewrite E2. cbn [bind]. rewrite E3. cbn [bind]. rewrite E4. cbn [bind]. apply P0.
  - intros W put s. unfold npl_write_chunk_to. rewrite E1. cbn [bind]. rewrite E2. cbn [bind]. rewrite E3. cbn [bind]. rewrite E4. cbn [bind]. apply P.
Qed.

Lemma big_chunk_sim powers radix i : forall x,
  sim (fun w => npl_write_big_chunk be powers radix w i x) (fun W put w => npl_write_big_chunk_to be put powers radix w i x).
Proof.
  induction i as [|i IH]; intros x; cbn [npl_write_big_chunk npl_write_big_chunk_to]; [apply chunk_sim|].
  intros w w' E. destruct (get i powers) as [p|] eqn:E1; [|discriminate]. cbn [bind] in *.
  destruct (ubig_div_rem_vr x p) as [[q r]|] eqn:E2; [|discriminate]. cbn [bind] in *.
  exact (sim_bind _ _ _ _ (IH q) (IH r) w w' E).
Qed.

Lemma npl_loop_sim powers radix chunks : sim (npl_write_loop be powers radix chunks) (fun W put => npl_write_loop_to be put powers radix chunks).
Proof.
  induction chunks as [|[i x] t IH]; cbn [npl_write_loop npl_write_loop_to]; [apply sim_ret|].
  exact (sim_bind _ _ _ _ (big_chunk_sim powers radix i x) IH).
Qed.

Lemma npl_sim p : sim (npl_write be p) (fun W put => npl_write_to be put p).
Proof. exact (sim_bind _ _ _ _ (npm_sim (npl_top p)) (npl_loop_sim _ _ _)). Qed.

(** ** Sign, prefix, filling *)

Lemma write_digits_sim self w0 (w1 : writer_to) out t : sim w0 w1 -> write_digits be self w0 out = Ok t ->
  exists ps, t = out ++ text_of ps /\ (forall o, write_digits be self w0 o = Ok (o ++ text_of ps)) /\
    forall W put (s : W), write_digits_to be put self (w1 W put) s = Ok (after put s ps (fun s => s)).
Proof.
  intros S0 E. unfold write_digits in E. destruct (w0 (dw_new out (irf_case self))) as [u|] eqn:E1; [|discriminate]. cbn [bind] in E.
  destruct (dw_flush be u) as [v|] eqn:E2; [|discriminate]. cbn [bind] in E. injection E as <-.
  destruct (S0 _ _ E1) as (ps & P0 & P). destruct (flush_sim _ _ E2) as (qs & Q0 & Q). exists (ps ++ qs).
  assert (F : forall o, write_digits be self w0 o = Ok (o ++ text_of (ps ++ qs))).
  { intros o. unfold write_digits. specialize (P0 o). unfold reout, dw_new in P0. cbn [dw_buffer dw_len dw_case] in P0. unfold dw_new.
    rewrite P0. cbn [bind]. specialize (Q0 (o ++ text_of ps)). unfold reout in Q0. rewrite Q0. cbn [bind dw_out].
    rewrite text_of_app, app_assoc. reflexivity. }
  split; [|split; [exact F|]].
  - specialize (F out). unfold write_digits in F. rewrite E1 in F. cbn [bind] in F. rewrite E2 in F. cbn [bind] in F. injection F as F. exact F.
  - intros W put s. unfold write_digits_to. specialize (P W put s). unfold attach, dw_new in P. cbn [dw_buffer dw_len dw_case] in P.
    unfold sw_new. rewrite P. apply after_bind. intros s'. specialize (Q W put s'). unfold attach in Q. rewrite Q.
    rewrite (after_bind put s' qs [] _ (fun s => s)); [rewrite app_nil_r; reflexivity|]. intros s2. reflexivity.
Qed.

Definition no_width (f : Formatter) : Formatter :=
  mkFormatter (f_fill f) (f_align f) None (f_sign_plus f) (f_alternate f) (f_zero_pad f).

Definition sign_of (self : InRadixFull) (f : Formatter) : list Z :=
  match irf_sign self with Negative => [45] | Positive => if f_sign_plus f then [43] else [] end.

Definition from_pieces (self : InRadixFull) (f : Formatter) (ds : list piece) (p : piece) : Prop :=
  match p with
  | PStr s => s = sign_of self f \/ s = irf_prefix self \/ s = [48] \/ In (PStr s) ds
  | PChar _ => True
  end.

(** A writing function [m] that comes to the text [t]; [m0] is its text without filling. *)
Definition comes (self : InRadixFull) (f : Formatter) (t : list Z) (m0 : res (list Z))
  (m : forall W, (W -> piece -> W * bool) -> W -> res (wres W W)) : Prop :=
  exists ps ds, text_of ps = t /\ m0 = Ok (sign_of self f ++ irf_prefix self ++ text_of ds) /\
    Forall (from_pieces self f ds) ps /\ forall W put (s : W), m W put s = Ok (after put s ps (fun s => s)).

Lemma prepared_sim self f width w0 (w1 : writer_to) t : sim w0 w1 -> format_prepared be self f width w0 = Ok t ->
  comes self f t (format_prepared be self (no_width f) width w0) (fun W put => format_prepared_to be put self f width (w1 W put)).
Proof.
  intros S0 E. unfold comes, format_prepared, format_prepared_to in *. cbn [no_width f_width f_sign_plus f_fill f_align f_zero_pad].
  fold (sign_of self f) in *. set (sg := sign_of self f) in *.
  destruct width as [width|]; [|discriminate]. cbn [bind] in *.
  destruct (usize_chk (Z.of_nat (length sg) + _)) as [n|]; [|discriminate]. cbn [bind] in *.
  destruct (usize_chk (width + n)) as [wd|]; [|discriminate]. cbn [bind] in *.
  assert (FI : forall ds, from_pieces self f ds (PStr sg) /\ from_pieces self f ds (PStr (irf_prefix self))).
  { intros ds. cbn. auto. }
  assert (FD : forall ds es, Forall (from_pieces self f ds) es <-> (forall p, In p es -> from_pieces self f ds p)) by (intros; apply Forall_forall).
  assert (FS : forall ds, Forall (from_pieces self f ds) ds).
  { intros ds. apply FD. intros [s|c] I; cbn; auto. }
  assert (FR : forall ds p k, from_pieces self f ds p -> Forall (from_pieces self f ds) (repeat p k)).
  { intros ds p k H. apply FD. intros q I. apply repeat_spec in I. subst q. exact H. }
  (* without filling *)
  assert (PL : forall o, write_digits be self w0 (sg ++ irf_prefix self) = Ok o ->
    exists ps ds, text_of ps = o /\ write_digits be self w0 (sg ++ irf_prefix self) = Ok (sg ++ irf_prefix self ++ text_of ds) /\
      Forall (from_pieces self f ds) ps /\ forall W put (s : W),
      (s <~ emit put s (PStr sg) ;; s <~ emit put s (PStr (irf_prefix self)) ;; s <~ write_digits_to be put self (w1 W put) s ;; Ok (Done s)) =
      Ok (after put s ps (fun s => s))).
  { intros o Eo. destruct (write_digits_sim self w0 w1 _ o S0 Eo) as (ds & ET & F & P).
    exists ([PStr sg] ++ [PStr (irf_prefix self)] ++ ds ++ []), ds. split; [|split; [|split]].
    - rewrite ET, !text_of_app. unfold text_of at 1 2 4. cbn [map concat piece_text]. rewrite !app_nil_r, app_assoc. reflexivity.
    - rewrite F, app_assoc. reflexivity.
    - destruct (FI ds). rewrite app_nil_r. cbn [app]. constructor; auto.
    - intros W put s. rewrite emit_after. apply after_bind. intros s1. rewrite emit_after. apply after_bind. intros s2. rewrite P.
      apply after_bind. intros s3. reflexivity. }
  destruct (f_width f) as [mw|]; [|apply PL; exact E].
  destruct (mw <=? wd); [apply PL; exact E|].
  destruct (f_zero_pad f).
  - destruct (write_digits_sim self w0 w1 _ t S0 E) as (ds & ET & F & P).
    exists ([PStr sg] ++ [PStr (irf_prefix self)] ++ repeat (PStr [48]) (Z.to_nat (mw - wd)) ++ ds ++ []), ds. split; [|split; [|split]].
    + rewrite ET, !text_of_app, text_of_strs. unfold text_of at 1 2 4. cbn [map concat piece_text]. rewrite !app_nil_r, <- !app_assoc. reflexivity.
    + rewrite F, app_assoc. reflexivity.
    + destruct (FI ds). rewrite app_nil_r. cbn [app]. constructor; auto. constructor; auto. apply Forall_app. split; [|apply FS].
      apply FR. cbn. auto.
    + intros W put s. rewrite emit_after. apply after_bind. intros s1. rewrite emit_after. apply after_bind. intros s2.
      rewrite emit_many_after. apply after_bind. intros s3. rewrite P. apply after_bind. intros s4. reflexivity.
  - set (left := match f_align f with Some AlignLeft => 0 | Some AlignRight | None => _ | Some AlignCenter => _ end) in *.
    destruct (write_digits be self w0 (repeat (f_fill f) (Z.to_nat left) ++ sg ++ irf_prefix self)) as [o|] eqn:Eo; [|discriminate].
    cbn [bind] in E. injection E as <-.
    destruct (write_digits_sim self w0 w1 _ o S0 Eo) as (ds & ET & F & P).
    exists (repeat (PChar (f_fill f)) (Z.to_nat left) ++ [PStr sg] ++ [PStr (irf_prefix self)] ++ ds ++
            repeat (PChar (f_fill f)) (Z.to_nat (mw - wd - left)) ++ []), ds. split; [|split; [|split]].
    + rewrite ET, !text_of_app, !text_of_chars. unfold text_of at 1 2 4. cbn [map concat piece_text]. rewrite !app_nil_r, <- !app_assoc. reflexivity.
    + rewrite F, app_assoc. reflexivity.
    + destruct (FI ds). rewrite app_nil_r. apply Forall_app. split; [apply FR; exact I|]. cbn [app]. constructor; auto. constructor; auto.
      apply Forall_app. split; [apply FS|apply FR; exact I].
    + intros W put s. rewrite emit_many_after. apply after_bind. intros s0. rewrite emit_after. apply after_bind. intros s1.
      rewrite emit_after. apply after_bind. intros s2. rewrite P. apply after_bind. intros s3.
      rewrite emit_many_after. apply after_bind. intros s4. reflexivity.
Qed.

Lemma fmt_full_sim self f t : fmt_full be self f = Ok t ->
  comes self f t (fmt_full be self (no_width f)) (fun W put => fmt_full_to be put self f).
Proof.
  intros E. unfold fmt_full, fmt_full_to in *. destruct (is_pow2 (irf_radix self)) eqn:EP.
  - unfold fmt_power_two, fmt_power_two_to in *. destruct (assert _) as [[]|]; [|discriminate]. cbn [bind] in *.
    destruct (irf_magnitude self) as [word|buf].
    + destruct (p2w_new word (irf_radix self)) as [p|]; [|discriminate]. cbn [bind] in *.
      exact (prepared_sim self f _ _ _ t (p2w_sim p) E).
    + destruct (p2l_new (words buf) (irf_radix self)) as [p|]; [|discriminate]. cbn [bind] in *.
      exact (prepared_sim self f _ _ _ t (p2l_sim p) E).
  - unfold fmt_non_power_two, fmt_non_power_two_to in *. destruct (assert _) as [[]|]; [|discriminate]. cbn [bind] in *.
    destruct (irf_magnitude self) as [word|buf].
    + destruct (npw_new word (irf_radix self) 1) as [p|]; [|discriminate]. cbn [bind] in *.
      exact (prepared_sim self f _ _ _ t (npw_sim p) E).
    + destruct (radix_info (irf_radix self)) as [ri|]; [|discriminate]. cbn [bind] in *.
      destruct (usize_chk (digits_per_word ri + 1)) as [d|]; [|discriminate]. cbn [bind] in *.
      destruct (usize_chk (blen buf * d)) as [md|]; [|discriminate]. cbn [bind] in *.
      destruct (usize_chk (Z.of_nat CHUNK_LEN * digits_per_word ri)) as [lim|]; [|discriminate]. cbn [bind] in *.
      destruct (md <=? lim).
      * destruct (npm_new (Large buf) (irf_radix self)) as [p|]; [|discriminate]. cbn [bind] in *.
        exact (prepared_sim self f _ _ _ t (npm_sim p) E).
      * destruct (npl_new (Large buf) (irf_radix self)) as [p|]; [|discriminate]. cbn [bind] in *.
        exact (prepared_sim self f _ _ _ t (npl_sim p) E).
Qed.

(** ** The public functions *)

Lemma digit_ascii up d : 0 <= d < 36 -> ascii (digit_text up d).
Proof. unfold ascii, digit_text. intros H. destruct (Z.leb_spec d 9), up; lia. Qed.

Lemma comes_delivers self f t m0 m ds up : comes self f t m0 m -> Forall ascii (irf_prefix self) ->
  (forall d, In d ds -> 0 <= d < 36) -> m0 = Ok (sign_of self f ++ irf_prefix self ++ map (digit_text up) ds) -> delivers m t.
Proof.
  intros (ps & es & ET & E0 & FP & P) HP HD E. exists ps. split; [exact ET|]. split; [|exact P].
  intros s I. rewrite Forall_forall in FP. specialize (FP _ I). cbn in FP.
  destruct FP as [-> | [-> | [-> | IE]]]; [|exact HP| |].
  - unfold sign_of. destruct (irf_sign self); [destruct (f_sign_plus f)|]; repeat constructor; unfold ascii; lia.
  - repeat constructor; unfold ascii; lia.
  - rewrite E0 in E. injection E as E. apply app_inv_head in E. apply app_inv_head in E.
    apply Forall_forall. intros c Ic.
    assert (IT : In c (text_of es)).
    { unfold text_of. apply in_concat. exists s. split; [|exact Ic]. apply in_map_iff. exists (PStr s). auto. }
    rewrite E in IT. apply in_map_iff in IT as (d & <- & Id). apply digit_ascii. auto.
Qed.

Lemma fmt_full_delivers self f : ubig_ok (irf_magnitude self) -> 2 <= irf_radix self <= 36 ->
  case_fits (irf_case self) (irf_radix self) -> (length (irf_prefix self) <= 2)%nat -> width_ok f ->
  Forall ascii (irf_prefix self) ->
  exists t, fmt_full be self f = Ok t /\ delivers (fun W put => fmt_full_to be put self f) t.
Proof.
  intros Hu Hr HC HP HW HA. destruct (fmt_full_spec be self f Hu Hr HC HP HW) as (ds & C & E).
  eexists. split; [exact E|]. assert (HW0 : width_ok (no_width f)) by discriminate.
  destruct (fmt_full_spec be self (no_width f) Hu Hr HC HP HW0) as (es & (D & _) & E0).
  apply (comes_delivers self f _ _ _ es (is_upper (irf_case self)) (fmt_full_sim self f _ E)); auto.
  - intros d Id. unfold digits_ok in D. rewrite Forall_forall in D. specialize (D d Id). lia.
  - rewrite E0, padded_plain by reflexivity. unfold sign_of, sign_text. cbn [no_width f_sign_plus].
    destruct (irf_sign self); reflexivity.
Qed.

Lemma alt_ascii (f : Formatter) c : ascii c -> Forall ascii (if f_alternate f then [48; c] else []).
Proof. intros H. assert (ascii 48) by (unfold ascii; lia). destruct (f_alternate f); auto. Qed.
Lemma delivers_ext (m m' : forall W, (W -> piece -> W * bool) -> W -> res (wres W W)) t :
  (forall W put s, m' W put s = m W put s) -> delivers m t -> delivers m' t.
Proof. intros H (ps & E & AS & P). exists ps. split; [exact E|]. split; [exact AS|]. intros W put s. rewrite H. apply P. Qed.

(** What the traits fill in. *)
Definition self_of (sg : sign) (t : fmt_trait) (u : ubig) (f : Formatter) : InRadixFull :=
  mkInRadixFull sg u (trait_radix t) (trait_prefix t f)
    match t with TLowerHex => Lower | TUpperHex => Upper | _ => NoLetters end.

Lemma trait_delivers sg t u f : ubig_ok u -> width_ok f ->
  exists s, fmt_full be (self_of sg t u f) f = Ok s /\ delivers (fun W put => fmt_full_to be put (self_of sg t u f) f) s.
Proof.
  intros Hu HW. apply fmt_full_delivers; auto; cbn [self_of irf_magnitude irf_radix irf_case irf_prefix].
  - destruct t; cbn; lia.
  - destruct t; cbn; lia.
  - destruct t; cbn [trait_prefix]; try apply prefix_len; cbn; lia.
  - destruct t; cbn [trait_prefix]; try constructor; apply alt_ascii; unfold ascii; lia.
Qed.

Theorem ubig_fmt_delivers t u f : ubig_ok u -> width_ok f ->
  exists s, trait_text t f (uval u) s /\ delivers (fun W put => ubig_fmt_to be put t u f) s.
Proof.
  intros Hu HW. destruct (ubig_fmt_spec be t u f Hu HW) as (s & E & T). exists s. split; [exact T|].
  destruct (trait_delivers Positive t u f Hu HW) as (s' & E' & D).
  assert (EQ : ubig_fmt be t u f = fmt_full be (self_of Positive t u f) f) by (destruct t; reflexivity).
  assert (s' = s) as -> by congruence.
  apply (delivers_ext _ _ _) with (2 := D). intros W put st. destruct t; reflexivity.
Qed.

Theorem ibig_fmt_delivers t x f : ibig_ok x -> width_ok f ->
  exists s, trait_text t f (ival x) s /\ delivers (fun W put => ibig_fmt_to be put t x f) s.
Proof.
  intros Hx HW. destruct (ibig_shows be x f Hx HW) as (H1 & H2 & H3 & H4 & H5 & H6). destruct Hx as [Hu _].
  destruct (trait_delivers (isign x) t (imag x) f Hu HW) as (s & E & D). exists s. split.
  - unfold trait_text. rewrite <- E. destruct t; assumption.
  - apply (delivers_ext _ _ _) with (2 := D). intros W put st. destruct t; reflexivity.
Qed.

Lemma in_radix_delivers sg u radix f : ubig_ok u -> width_ok f -> 2 <= radix <= 36 ->
  exists s, in_radix_display be (mkInRadix sg u radix) f = Ok s /\
    delivers (fun W put => in_radix_display_to be put (mkInRadix sg u radix) f) s.
Proof.
  intros Hu HW Hr. unfold in_radix_display, in_radix_display_to. cbn [ir_sign ir_magnitude ir_radix].
  destruct (Z.leb_spec radix 10); [|destruct (f_alternate f)]; apply fmt_full_delivers; cbn; auto; lia.
Qed.

Theorem ubig_in_radix_delivers u radix f : ubig_ok u -> width_ok f -> 2 <= radix <= 36 ->
  exists r s, ubig_in_radix u radix = Ok r /\ shows (Ok s) f radix (f_alternate f) [] (uval u) /\
    delivers (fun W put => in_radix_display_to be put r f) s.
Proof.
  intros Hu HW Hr. destruct (in_radix_delivers Positive u radix f Hu HW Hr) as (s & E & D).
  exists (mkInRadix Positive u radix), s. pose proof (ubig_in_radix_shows be u radix f Hu HW Hr) as SH.
  unfold ubig_in_radix_text, ubig_in_radix in *. rewrite valid_ok in * by auto. cbn [bind] in *. rewrite E in SH. auto.
Qed.

Theorem ibig_in_radix_delivers x radix f : ibig_ok x -> width_ok f -> 2 <= radix <= 36 ->
  exists r s, ibig_in_radix x radix = Ok r /\ shows (Ok s) f radix (f_alternate f) [] (ival x) /\
    delivers (fun W put => in_radix_display_to be put r f) s.
Proof.
  intros Hx HW Hr. pose proof (ibig_in_radix_shows be x radix f Hx HW Hr) as SH. destruct Hx as [Hu _].
  destruct (in_radix_delivers (isign x) (imag x) radix f Hu HW Hr) as (s & E & D).
  exists (mkInRadix (isign x) (imag x) radix), s.
  unfold ibig_in_radix_text, ibig_in_radix in *. rewrite valid_ok in * by auto. cbn [bind] in *. rewrite E in SH. auto.
Qed.

(** ** Rings and their elements *)

Lemma delivers_bind m1 m2 t1 t2 : delivers m1 t1 -> delivers m2 t2 ->
  delivers (fun W put s => s <~ m1 W put s ;; m2 W put s) (t1 ++ t2).
Proof.
  intros (ps & E1 & A1 & P) (qs & E2 & A2 & Q). exists (ps ++ qs). split; [rewrite text_of_app; congruence|]. split.
  - intros s I. apply in_app_iff in I as [I|I]; auto.
  - intros W put s. rewrite P. apply (after_bind put s ps qs (fun s => s) (fun s => s)). intros s'. apply Q.
Qed.

Lemma delivers_str s : Forall ascii s -> delivers (fun W put st => emit put st (PStr s)) s.
Proof.
  intros H. exists [PStr s]. split; [apply app_nil_r|]. split.
  - intros s' [I|[]]. injection I as <-. exact H.
  - intros W put st. apply emit_after.
Qed.

Lemma delivers_char c : delivers (fun W put st => emit put st (PChar c)) [c].
Proof.
  exists [PChar c]. split; [reflexivity|]. split.
  - intros s' [I|[]]. discriminate.
  - intros W put st. apply emit_after.
Qed.

Lemma delivers_chars c n : delivers (fun W put st => emit_many put n (PChar c) st) (repeat c n).
Proof.
  exists (repeat (PChar c) n). split; [apply text_of_chars|]. split.
  - intros s' I. apply repeat_spec in I. discriminate.
  - intros W put st. apply emit_many_after.
Qed.

Lemma delivers_nil : delivers (fun W put st => Ok (Done st)) [].
Proof. exists []. split; [reflexivity|]. split; [intros s []|reflexivity]. Qed.

Lemma pad_delivers f prefix digits : Forall ascii prefix -> Forall ascii digits ->
  delivers (fun W put => pad_integral_to put f prefix digits) (pad_integral f prefix digits).
Proof.
  intros HP HD. unfold pad_integral, pad_integral_to.
  set (start := (if f_sign_plus f then _ else _) ++ _).
  assert (ST : delivers (fun W put s => s <~ (if f_sign_plus f then emit put s (PChar 43) else Ok (Done s)) ;;
                         if f_alternate f then emit put s (PStr prefix) else Ok (Done s)) start).
  { unfold start. apply (delivers_bind (fun W put s => if f_sign_plus f then emit put s (PChar 43) else Ok (Done s))
      (fun W put s => if f_alternate f then emit put s (PStr prefix) else Ok (Done s))).
    - destruct (f_sign_plus f); [apply delivers_char|apply delivers_nil].
    - destruct (f_alternate f); [apply delivers_str; exact HP|apply delivers_nil]. }
  pose proof (delivers_str digits HD) as SD.
  destruct (f_width f) as [mn|]; [|exact (delivers_bind _ _ _ _ ST SD)].
  destruct (mn <=? _); [exact (delivers_bind _ _ _ _ ST SD)|].
  destruct (f_zero_pad f).
  - exact (delivers_bind _ _ _ _ ST (delivers_bind _ _ _ _ (delivers_chars 48 _) SD)).
  - exact (delivers_bind _ _ _ _ (delivers_chars (f_fill f) _)
      (delivers_bind _ _ _ _ ST (delivers_bind _ _ _ _ SD (delivers_chars (f_fill f) _)))).
Qed.

Lemma core_delivers radix up c w f : 2 <= radix <= 36 -> 0 <= w < B -> Forall ascii c ->
  exists t, core_fmt_radix radix up c w f = Ok t /\ delivers (fun W put => core_fmt_radix_to put radix up c w f) t.
Proof.
  intros Hr Hw HA. pose proof wbits_ge as Hb. unfold core_fmt_radix, core_fmt_radix_to. destruct (Z.to_nat wbits) as [|k] eqn:Ek; [lia|].
  destruct (core_digits_spec k radix up w [] ltac:(lia)) as (ds & (D & _) & E).
  { rewrite <- Ek, Z2Nat.id by lia. split; [lia|]. apply (Z.lt_le_trans _ B); [lia|]. unfold B. apply Z.pow_le_mono_l. lia. }
  rewrite E. cbn [bind]. rewrite app_nil_r. eexists. split; [reflexivity|]. apply pad_delivers; [exact HA|].
  apply Forall_forall. intros x I. apply in_map_iff in I as (d & <- & I). unfold digits_ok in D. rewrite Forall_forall in D.
  apply digit_ascii. specialize (D d I). lia.
Qed.

Lemma word_delivers dh t w f : 0 <= w < B ->
  exists s, word_fmt dh t w f = Ok s /\ delivers (fun W put => word_fmt_to put dh t w f) s.
Proof.
  intros Hw. unfold word_fmt, word_fmt_to.
  destruct t; [| destruct dh as [[]|] | | | |]; apply core_delivers; try lia; auto; repeat constructor; unfold ascii; lia.
Qed.

Lemma ubig_delivers t u f : ubig_ok u -> width_ok f ->
  exists s, ubig_fmt be t u f = Ok s /\ delivers (fun W put => ubig_fmt_to be put t u f) s.
Proof.
  intros Hu HW. destruct (ubig_fmt_spec be t u f Hu HW) as (s & E & (ds & C & ED)). destruct (ubig_fmt_delivers t u f Hu HW) as (s' & (es & C' & EE) & D).
  exists s. split; [exact E|]. assert (s = s') as ->; [|exact D]. injection ED as ->. injection EE as ->. f_equal. f_equal.
  apply (canonical_unique (trait_radix t) (Z.abs (uval u))); auto. destruct t; cbn; lia.
Qed.

Lemma mod_ascii : Forall ascii [109; 111; 100; 32].
Proof. repeat constructor; unfold ascii; lia. Qed.

Theorem ring_delivers dh t r n f : is_ring r n -> width_ok f ->
  exists s, ring_fmt be dh t r f = Ok s /\ delivers (fun W put => ring_fmt_to be put dh t r f) s.
Proof.
  intros Hr HW. destruct r as [r|r]; cbn [ring_fmt].
  - apply is_ring_small in Hr as (Hn & Hs & EM & _).
    assert (EN : ring_small_modulus r = n) by (unfold ring_small_modulus, shr_w; rewrite Z.shiftr_div_pow2, EM, Z.div_mul by lia; reflexivity).
    destruct (word_delivers dh t n f) as (s & E & T); [lia|]. unfold ring_small_fmt. rewrite EN, E. cbn [bind]. eexists. split; [reflexivity|].
    apply delivers_ext with (2 := delivers_bind _ _ _ _ (delivers_str _ mod_ascii) T). intros W put st.
    cbn [ring_fmt_to]. unfold ring_small_fmt_to. rewrite EN. reflexivity.
  - destruct (ring_modulus_spec _ n Hr) as (u & E & Hu & V). cbn [ring_modulus] in E. unfold ring_large_fmt. rewrite E. cbn [bind].
    destruct (ubig_delivers t u f Hu HW) as (s & -> & T). cbn [bind]. eexists. split; [reflexivity|].
    apply delivers_ext with (2 := delivers_bind _ _ _ _ (delivers_str _ mod_ascii) T). intros W put st.
    cbn [ring_fmt_to]. unfold ring_large_fmt_to. rewrite E. reflexivity.
Qed.

Theorem element_delivers dh t r n x a f : element r n x a -> width_ok f ->
  exists s, modulo_fmt be dh t x f = Ok s /\ delivers (fun W put => modulo_fmt_to be put dh t x f) s.
Proof.
  intros H HW. pose proof (element_ring _ _ _ _ H) as Hr. pose proof (ring_delivers dh t r n f Hr HW) as (sn & En & Dn).
  assert (O : Forall ascii [32; 40]) by (repeat constructor; unfold ascii; lia).
  assert (C : Forall ascii [41]) by (repeat constructor; unfold ascii; lia).
  destruct r as [r|r]; cbn [ring_fmt] in En.
  - apply element_small in H as (R & raw & -> & H). cbn [modulo_fmt]. unfold modulo_small_fmt.
    assert (EA : small_residue (mkModuloSmall r raw) = Ok a) by (unfold small_residue; cbn [ms_raw ms_ring]; rewrite (raw_of_residue r n R raw a H); reflexivity).
    rewrite EA. cbn [bind ms_ring]. destruct H as [_ H]. destruct R as [R _].
    destruct (word_delivers dh t a f) as (s & E & T); [lia|]. rewrite E. cbn [bind]. rewrite En. cbn [bind]. eexists. split; [reflexivity|].
    apply delivers_ext with (2 := delivers_bind _ _ _ _ T (delivers_bind _ _ _ _ (delivers_str _ O) (delivers_bind _ _ _ _ Dn (delivers_str _ C)))).
    intros W put st. cbn [modulo_fmt_to]. unfold modulo_small_fmt_to. rewrite EA. reflexivity.
  - pose proof (residue_spec _ _ _ _ H) as (u & E & Hu & V). apply element_large in H as (R & ws & -> & H).
    cbn [modulo_fmt residue] in *. unfold modulo_large_fmt. rewrite E. cbn [bind].
    destruct (ubig_delivers t u f Hu HW) as (s & -> & T). cbn [bind ml_ring]. rewrite En. cbn [bind]. eexists. split; [reflexivity|].
    apply delivers_ext with (2 := delivers_bind _ _ _ _ T (delivers_bind _ _ _ _ (delivers_str _ O) (delivers_bind _ _ _ _ Dn (delivers_str _ C)))).
    intros W put st. cbn [modulo_fmt_to]. unfold modulo_large_fmt_to. rewrite E. reflexivity.
Qed.

End Sink.

(** ** Sinks that keep their text *)

Lemma feed_keeps {W} (put : W -> piece -> W * bool) view ps : keeps put view -> forall s s' ok,
  feed put s ps = (s', ok) -> exists a b, text_of ps = a ++ b /\ view s' = view s ++ a /\ (ok = true -> b = []).
Proof.
  intros K. induction ps as [|p ps IH]; intros s s' ok E; cbn [feed] in E.
  - injection E as <- <-. exists [], []. split; [reflexivity|]. split; [rewrite app_nil_r; reflexivity|auto].
  - destruct (put s p) as [s1 o1] eqn:E1. destruct (K _ _ _ _ E1) as (a & b & Ep & Ev & Eb).
    change (text_of (p :: ps)) with (piece_text p ++ text_of ps). destruct o1.
    + destruct (IH _ _ _ E) as (a2 & b2 & Ep2 & Ev2 & Eb2). exists (a ++ a2), b2. rewrite (Eb eq_refl), app_nil_r in Ep. rewrite Ep, Ep2, Ev2, Ev, !app_assoc. auto.
    + injection E as <- <-. exists a, (b ++ text_of ps). rewrite Ep, app_assoc. split; [reflexivity|]. split; [exact Ev|]. discriminate.
Qed.

Theorem delivers_keeps m t W (put : W -> piece -> W * bool) view s : delivers m t -> keeps put view ->
  (exists s', m W put s = Ok (Done s') /\ view s' = view s ++ t) \/
  (exists s' a b, m W put s = Ok (Failed s') /\ t = a ++ b /\ view s' = view s ++ a).
Proof.
  intros (ps & <- & _ & P) K. specialize (P W put s). destruct (feed put s ps) as [s' ok] eqn:E.
  destruct (feed_keeps put view ps K s s' ok E) as (a & b & Et & Ev & Eb). rewrite P, Et. destruct ok.
  - left. exists s'. rewrite (Eb eq_refl), app_nil_r. auto.
  - right. exists s', a, b. auto.
Qed.

(** A sink that never fails gets the whole text. *)
Theorem delivers_all m t W (put : W -> piece -> W * bool) view s : delivers m t -> keeps put view ->
  (forall s p, snd (put s p) = true) -> exists s', m W put s = Ok (Done s') /\ view s' = view s ++ t.
Proof.
  intros (ps & <- & _ & P) K T. specialize (P W put s). destruct (feed put s ps) as [s' ok] eqn:E.
  destruct (feed_keeps put view ps K s s' ok E) as (a & b & Et & Ev & Eb).
  assert (ok = true) as ->.
  { clear - E T. revert s E. induction ps as [|p ps IH]; intros s E; cbn [feed] in E; [congruence|].
    specialize (T s p). destruct (put s p) as [s1 o1]. cbn [snd] in T. subst o1. eauto. }
  exists s'. rewrite P, Et, (Eb eq_refl), app_nil_r. auto.
Qed.

(** A sink that fails at once gets nothing, and the failure is reported. *)
Theorem delivers_none m t W (put : W -> piece -> W * bool) s : delivers m t -> t <> [] ->
  (forall s p, put s p = (s, false)) -> m W put s = Ok (Failed s).
Proof.
  intros (ps & <- & _ & P) T F. rewrite P. destruct ps as [|p ps]; [destruct T; reflexivity|]. cbn [feed]. rewrite F. reflexivity.
Qed.
