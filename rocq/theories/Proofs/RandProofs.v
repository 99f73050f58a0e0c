(** Random samples lie in the range and all values of the range are equally likely. *)
From Verif Require Import Model.Base Model.Words Model.Buffer Model.UBig Model.IBig Model.Convert Model.AddOps Model.Rand
  Spec.Val Spec.Num Spec.Prim Spec.Rand Proofs.Basics Proofs.AddProofs Proofs.BufferProofs Proofs.ConvertProofs Proofs.AddOpsProofs Proofs.DivOpsProofs.
From Coq Require Import QArith Lia Lqa.
Open Scope Z_scope.

(** ** All outcomes *)

Fixpoint all {T} (m : rand T) (P : res T -> Prop) : Prop :=
  match m with
  | Ret x => P (Ok x)
  | Fail p => P (Panic p)
  | Pick n k => forall c, 0 <= c < n -> all (k c) P
  end.

Lemma all_runs {T} (m : rand T) P : all m P -> forall cs r, runs m cs r -> P r.
Proof. intros H cs r R. induction R; cbn in H; auto. Qed.

Lemma all_impl {T} (m : rand T) (P P' : res T -> Prop) : (forall r, P r -> P' r) -> all m P -> all m P'.
Proof. intros I. induction m; cbn; auto. Qed.

Lemma all_bind {S T} (m : rand S) (k : S -> rand T) P :
  all m (fun r => match r with Ok x => all (k x) P | Panic p => P (Panic p) end) -> all (rbind m k) P.
Proof. induction m; cbn; auto. Qed.

(** ** Expectations *)

Open Scope Q_scope.

Fixpoint E {T} (m : rand T) (f : res T -> Q) : Q :=
  match m with
  | Ret x => f (Ok x)
  | Fail p => f (Panic p)
  | Pick n k => total (Z.to_nat n) (fun c => E (k c) f) / inject_Z n
  end.

Lemma total_ext n f g : (forall c, (0 <= c < Z.of_nat n)%Z -> f c == g c) -> total n f == total n g.
Proof.
  induction n as [|n IH]; intros H; cbn [total]; [reflexivity|].
  rewrite IH, (H (Z.of_nat n)) by (intros; try apply H; lia). reflexivity.
Qed.
Lemma total_plus n f g : total n (fun c => f c + g c) == total n f + total n g.
Proof. induction n as [|n IH]; cbn [total]; [reflexivity|]. rewrite IH. ring. Qed.
Lemma total_point n y a : total n (fun c => if (c =? y)%Z then a else 0) ==
  if ((0 <=? y) && (y <? Z.of_nat n))%Z then a else 0.
Proof.
  induction n as [|n IH]; cbn [total]; [destruct (Z.leb_spec 0 y), (Z.ltb_spec y (Z.of_nat 0)); cbn; try reflexivity; lia|].
  rewrite IH. destruct (Z.leb_spec 0 y), (Z.ltb_spec y (Z.of_nat n)), (Z.ltb_spec y (Z.of_nat (S n))), (Z.eqb_spec (Z.of_nat n) y); cbn; try lia; ring.
Qed.
Lemma total_above n w g : (-1 <= w < Z.of_nat n)%Z ->
  total n (fun c => if (w <? c)%Z then g else 0) == inject_Z (Z.of_nat n - 1 - w) * g.
Proof.
  intros H. destruct (Z.eq_dec w (-1)) as [->|].
  - clear H. induction n as [|n IH]; cbn [total]; [change (Z.of_nat 0 - 1 - -1)%Z with 0%Z; ring|].
    rewrite IH. destruct (Z.ltb_spec (-1) (Z.of_nat n)); [|lia].
    replace (Z.of_nat (S n) - 1 - -1)%Z with (Z.of_nat n - 1 - -1 + 1)%Z by lia. rewrite inject_Z_plus. ring.
  - assert (0 <= w)%Z as Hw by lia. clear n0. destruct H as [_ H]. revert H. induction n as [|n IH]; intros H; [lia|]. cbn [total].
    destruct (Z.eq_dec (Z.of_nat n) w) as [E0|E0].
    + rewrite (total_ext n _ (fun _ => 0)).
      2:{ intros c Hc. destruct (Z.ltb_spec w c); [lia|reflexivity]. }
      assert (total n (fun _ => 0) == 0) as -> by (clear; induction n as [|n IH]; cbn [total]; [reflexivity|rewrite IH; reflexivity]).
      rewrite E0, Z.ltb_irrefl. replace (Z.of_nat (S n) - 1 - w)%Z with 0%Z by lia. ring.
    + rewrite IH by lia. destruct (Z.ltb_spec w (Z.of_nat n)); [|lia].
      replace (Z.of_nat (S n) - 1 - w)%Z with (Z.of_nat n - 1 - w + 1)%Z by lia. rewrite inject_Z_plus. ring.
Qed.

Lemma E_ext {T} (m : rand T) f g : (forall r, f r == g r) -> E m f == E m g.
Proof.
  intros H. induction m as [x|p|n k IH]; cbn [E]; auto.
  rewrite (total_ext _ _ (fun c => E (k c) g)); [reflexivity|]. intros; apply IH.
Qed.

(** Outcomes that do not occur do not matter. *)
Lemma E_ext_all {T} (m : rand T) P f g : all m P -> (forall r, P r -> f r == g r) -> E m f == E m g.
Proof.
  intros H I. induction m as [x|p|n k IH]; cbn [E all] in *; auto.
  rewrite (total_ext _ _ (fun c => E (k c) g)); [reflexivity|]. intros c Hc. apply IH, H. lia.
Qed.

Lemma E_bind {S T} (m : rand S) (k : S -> rand T) f :
  E (rbind m k) f == E m (fun r => match r with Ok x => E (k x) f | Panic p => f (Panic p) end).
Proof.
  induction m as [x|p|n c IH]; cbn [E rbind]; try reflexivity.
  rewrite (total_ext _ _ (fun i => E (c i) (fun r => match r with Ok x => E (k x) f | Panic p => f (Panic p) end))); [reflexivity|].
  intros; apply IH.
Qed.

Lemma prob_E {T} (m : rand T) P : prob m P == E m (fun r => if P r then 1 else 0).
Proof.
  induction m as [x|p|n k IH]; cbn [E prob]; try reflexivity.
  rewrite (total_ext _ _ (fun c => E (k c) (fun r => if P r then 1 else 0))); [reflexivity|]. intros; apply IH.
Qed.

Open Scope Z_scope.

Section RandProofs.
Context {A : Arch} {AOK : ArchOk A}.

(** ** One attempt *)

Lemma skipn_upd i c (l : list Z) : (i < length l)%nat -> skipn i (upd i c l) = c :: skipn (S i) l.
Proof. revert i; induction l as [|x l IH]; intros [|i] H; cbn [length] in H; try lia; cbn [upd skipn]; [reflexivity|]. apply IH. lia. Qed.

Lemma get_nth i (l : list Z) : (i < length l)%nat -> get i l = Ok (nth i l 0).
Proof.
  intros H. unfold get. rewrite (nth_error_nth' l 0 H). reflexivity.
Qed.
Lemma set_upd i c (l : list Z) : (i < length l)%nat -> set i c l = Ok (upd i c l).
Proof. intros H. unfold set. rewrite (proj2 (Nat.ltb_lt _ _)) by auto. reflexivity. Qed.

Lemma wf_nth i l : wf l -> (i < length l)%nat -> 0 <= nth i l 0 < B.
Proof. intros W H. apply (proj1 (Forall_nth word_ok l) W); auto. Qed.

Lemma fill_all i : forall l, (i <= length l)%nat -> wf l ->
  all (fill i l) (fun r => exists l', r = Ok l' /\ wf l' /\ length l' = length l /\ skipn i l' = skipn i l).
Proof.
  induction i as [|i IH]; intros l L W; cbn [fill].
  - cbn. eauto.
  - destruct l as [|x t]; [cbn in L; lia|]. inversion W as [|? ? Wx Wt]; subst. cbn [length] in L.
    unfold gen_word. cbn [rbind all]. intros c Hc. apply all_bind. eapply all_impl; [|apply IH; [lia|auto]].
    intros r (l' & -> & W' & L' & S'). cbn [all]. eexists; split; [reflexivity|]. split; [constructor; auto|].
    cbn [length skipn]. auto.
Qed.

(** The number formed by the words from index [i] on. *)
Lemma val_split_at i l : (i <= length l)%nat -> val l = val (firstn i l) + Bn i * val (skipn i l).
Proof. intros H. rewrite <- (firstn_skipn i l) at 1. rewrite val_app, firstn_length_le by auto. reflexivity. Qed.

Lemma fill_loop_all i : forall ws l, (i < length ws)%nat -> length l = length ws -> wf ws -> wf l ->
  nth i l 0 <= nth i ws 0 -> skipn (S i) l = skipn (S i) ws ->
  all (fill_loop i ws l) (fun r => exists ok l', r = Ok (ok, l') /\ wf l' /\ length l' = length ws /\
     (ok = true -> val l' < val ws)).
Proof.
  induction i as [|i IH]; intros ws l L Ll W Wl Hn Hs; unfold fill_loop; fold fill_loop;
    rewrite !get_nth by lia; cbn [lift rbind].
  - destruct (Z.eqb_spec (nth 0 l 0) (nth 0 ws 0)).
    + cbn. eexists _, _; split; [reflexivity|]. repeat split; auto. discriminate.
    + cbn. eexists _, _; split; [reflexivity|]. repeat split; auto. intros _.
      rewrite (val_split_at 0 l), (val_split_at 0 ws) by lia. rewrite (skipn_nth_cons l), (skipn_nth_cons ws) by lia.
      rewrite Hs. cbn [firstn val]. rewrite Bn_0. lia.
  - destruct (Z.eqb_spec (nth (S i) l 0) (nth (S i) ws 0)) as [Ee|Ne].
    + unfold gen_word. cbn [rbind all]. intros c Hc. rewrite set_upd by lia. cbn [lift rbind].
      destruct (Z.ltb_spec (nth i ws 0) c).
      * cbn. eexists _, _; split; [reflexivity|]. split; [apply wf_upd; auto|]. rewrite length_upd. split; [auto|discriminate].
      * apply IH; auto; try lia.
        { rewrite length_upd; auto. } { apply wf_upd; auto. } { rewrite nth_upd_eq by lia. auto. }
        assert (forall (x : list Z), skipn (S i) (upd i c x) = skipn (S i) x) as R.
        { clear. intros x. revert i; induction x as [|y x IH]; intros [|i]; cbn [upd skipn]; auto. apply IH. }
        rewrite R, (skipn_nth_cons l), (skipn_nth_cons ws) by lia. rewrite Ee, Hs. reflexivity.
    + apply all_bind. eapply all_impl; [|apply (fill_all (S i) l); [lia|auto]].
      intros r (l' & -> & W' & L' & S'). cbn [all]. eexists _, _; split; [reflexivity|]. split; [auto|]. split; [lia|].
      intros _. rewrite (val_split_at (S i) l'), (val_split_at (S i) ws) by lia. rewrite S'.
      rewrite (skipn_nth_cons l), (skipn_nth_cons ws) by lia. rewrite Hs. cbn [val].
      pose proof (val_bound _ (wf_firstn (S i) _ W')) as V1. pose proof (val_nonneg _ (wf_firstn (S i) _ W)) as V2.
      rewrite firstn_length_le in V1 by lia. pose proof (Bn_pos (S i)). clear - V1 V2 Hn Ne H. nia.
Qed.

Lemma try_fill_all ws l : (0 < length ws)%nat -> length l = length ws -> wf ws -> wf l ->
  all (try_fill_uniform ws l) (fun r => exists ok l', r = Ok (ok, l') /\ wf l' /\ length l' = length ws /\
     (ok = true -> val l' < val ws)).
Proof.
  intros L Ll W Wl. unfold try_fill_uniform. rewrite Ll, Nat.eqb_refl, (proj2 (Nat.ltb_lt _ _)) by lia. cbn [andb assert lift rbind].
  pose proof (wf_nth (length ws - 1) ws W ltac:(lia)) as Hn.
  rewrite get_nth by lia. cbn [lift rbind]. unfold gen_range. rewrite (proj2 (Z.ltb_lt _ _)) by lia. cbn [rbind all].
  intros c Hc. rewrite set_upd by lia. cbn [lift rbind]. apply fill_loop_all; auto; try lia.
  - rewrite length_upd; auto.
  - apply wf_upd; auto; lia.
  - rewrite nth_upd_eq by lia. lia.
  - rewrite !skipn_all2 by (try rewrite length_upd; lia). reflexivity.
Qed.

Lemma attempts_all k : forall ws l, (0 < length ws)%nat -> length l = length ws -> wf ws -> wf l ->
  all (uniform_attempts k ws l) (fun r => r = Ok None \/ exists l', r = Ok (Some l') /\ wf l' /\ length l' = length ws /\ val l' < val ws).
Proof.
  induction k as [|k IH]; intros ws l L Ll W Wl; cbn [uniform_attempts]; [cbn; auto|].
  apply all_bind. eapply all_impl; [|apply try_fill_all; eauto].
  intros r (ok & l' & -> & W' & L' & V). cbv beta iota. destruct ok; cbn [all]; [right; exists l'; auto|apply IH; auto].
Qed.

(** ** Probabilities *)

Open Scope Q_scope.

Definition bq (i : nat) : Q := inject_Z (Bn i).

Lemma inject_nonzero z : (0 < z)%Z -> ~ inject_Z z == 0.
Proof. intros H E0. unfold Qeq in E0. cbn in E0. lia. Qed.
Lemma bq_nonzero i : ~ bq i == 0.
Proof. apply inject_nonzero. apply Bn_pos. Qed.
Lemma B_nonzero : ~ inject_Z B == 0.
Proof. apply inject_nonzero. pose proof B_ge. lia. Qed.
Lemma bq_S i : bq (S i) = inject_Z B * bq i.
Proof. unfold bq. rewrite Bn_S, inject_Z_mult. reflexivity. Qed.

Lemma B_nat : Z.of_nat (Z.to_nat B) = B.
Proof. pose proof B_ge. lia. Qed.

Lemma fill_E i : forall l r0 a (f : res (list Z) -> Q), (i <= length l)%nat -> wf l -> wf r0 -> length r0 = length l ->
  (forall l', wf l' -> length l' = length l -> f (Ok l') == if words_eqb l' r0 then a else 0) ->
  E (fill i l) f == if words_eqb (skipn i l) (skipn i r0) then a / bq i else 0.
Proof.
  pose proof B_ge as HB. pose proof B_nonzero as BN.
  induction i as [|i IH]; intros l r0 a f L W W0 L0 Hf; cbn [fill].
  - cbn [E skipn]. rewrite Hf by auto. destruct (words_eqb l r0); [|reflexivity]. unfold bq. rewrite Bn_0. field.
  - destruct l as [|x t]; [cbn in L; lia|]. destruct r0 as [|y s]; [discriminate L0|].
    inversion W as [|? ? Wx Wt]; subst. inversion W0 as [|? ? Wy Ws]; subst. cbn [length] in L, L0. cbn [skipn].
    unfold gen_word. cbn [rbind E].
    set (X := if words_eqb (skipn i t) (skipn i s) then a / bq i else 0).
    rewrite (total_ext _ _ (fun c => if (c =? y)%Z then X else 0)).
    + rewrite total_point. unfold word_ok in Wy. rewrite B_nat, (proj2 (Z.leb_le _ _)), (proj2 (Z.ltb_lt _ _)) by lia. cbn [andb].
      unfold X. destruct (words_eqb (skipn i t) (skipn i s)); [|field; auto]. rewrite bq_S. field. split; [apply bq_nonzero|auto].
    + intros c Hc. rewrite B_nat in Hc. rewrite E_bind. rewrite (IH t s (if (c =? y)%Z then a else 0)); auto; try lia.
      * unfold X. destruct (c =? y)%Z, (words_eqb (skipn i t) (skipn i s)); try reflexivity.
      * intros l' W' L'. cbn [E]. rewrite Hf; [|constructor; auto|cbn; lia]. cbn [words_eqb].
        destruct (c =? y)%Z, (words_eqb l' s); cbn [andb]; reflexivity.
Qed.

Lemma fill_loop_lt i ws l r0 a (f : res (bool * list Z) -> Q) :
  (i < length ws)%nat -> length l = length ws -> wf l -> wf r0 -> length r0 = length ws ->
  nth i l 0%Z <> nth i ws 0%Z ->
  (forall l', wf l' -> length l' = length ws -> f (Ok (true, l')) == if words_eqb l' r0 then a else 0) ->
  E (fill_loop i ws l) f == if words_eqb (skipn i l) (skipn i r0) then a / bq i else 0.
Proof.
  intros L Ll W W0 L0 N Hf. destruct i as [|i]; unfold fill_loop; fold fill_loop; rewrite !get_nth by lia; cbn [lift rbind];
  rewrite (proj2 (Z.eqb_neq _ _)) by auto; rewrite E_bind; apply fill_E; auto; try lia;
  intros l' W' L'; cbn [E]; apply Hf; auto; lia.
Qed.

Lemma eqb_cons x a y b : words_eqb (x :: a) (y :: b) = ((x =? y)%Z && words_eqb a b)%bool.
Proof. reflexivity. Qed.

Lemma fill_loop_eq i : forall ws l r0 a g (f : res (bool * list Z) -> Q),
  (i < length ws)%nat -> length l = length ws -> wf ws -> wf l -> wf r0 -> length r0 = length ws ->
  skipn i l = skipn i ws ->
  (forall l', wf l' -> length l' = length ws -> f (Ok (true, l')) == if words_eqb l' r0 then a else 0) ->
  (forall l', wf l' -> length l' = length ws -> f (Ok (false, l')) == g) ->
  E (fill_loop i ws l) f ==
    (if (words_eqb (skipn i r0) (skipn i ws) && (val (firstn i r0) <? val (firstn i ws))%Z)%bool then a / bq i else 0)
    + (1 - inject_Z (val (firstn i ws)) / bq i) * g.
Proof.
  pose proof B_ge as HB. pose proof B_nonzero as BN.
  induction i as [|i IH]; intros ws l r0 a g f L Ll W Wl W0 L0 Hs Ht Hg; unfold fill_loop; fold fill_loop;
    rewrite !get_nth by lia; cbn [lift rbind];
    rewrite (skipn_nth_cons l), (skipn_nth_cons ws) in Hs by lia; pose proof (f_equal (hd 0%Z) Hs) as Hn; pose proof (f_equal (@tl Z) Hs) as Hs'; cbn [hd tl] in Hn, Hs'; rewrite Hn, Z.eqb_refl.
  - cbn [E firstn val]. rewrite Hg by auto. rewrite Z.ltb_irrefl, andb_false_r. field. apply bq_nonzero.
  - unfold gen_word. cbn [rbind E].
    set (w := nth i ws 0%Z). set (y := nth i r0 0%Z).
    pose proof (wf_nth i ws W ltac:(lia)) as Hw. fold w in Hw. pose proof (wf_nth i r0 W0 ltac:(lia)) as Hy. fold y in Hy.
    set (agree := words_eqb (skipn (S i) r0) (skipn (S i) ws)).
    set (low := (val (firstn i r0) <? val (firstn i ws))%Z).
    set (V := inject_Z (val (firstn i ws))).
    set (X := (if ((w =? y)%Z && agree && low)%bool then a / bq i else 0) + (1 - V / bq i) * g).
    rewrite (total_ext _ _ (fun c => ((if (w <? c)%Z then g else 0) + (if (c =? w)%Z then X else 0))
        + (if (c =? y)%Z then (if ((y <? w)%Z && agree)%bool then a / bq i else 0) else 0))).
    2:{ intros c Hc. rewrite B_nat in Hc. rewrite set_upd by lia. cbn [lift rbind]. fold w.
        assert (wf (upd i c l)) as Wu by (apply wf_upd; auto). assert (length (upd i c l) = length ws) as Lu by (rewrite length_upd; auto).
        assert (skipn i (upd i c l) = c :: skipn (S i) ws) as Su.
        { rewrite skipn_upd by lia. rewrite (skipn_nth_cons l), (skipn_nth_cons ws) by lia. rewrite Hn, Hs'. reflexivity. }
        assert (skipn i r0 = y :: skipn (S i) r0) as S0 by (apply skipn_nth_cons; lia).
        assert (skipn i ws = w :: skipn (S i) ws) as Sw by (apply skipn_nth_cons; lia).
        destruct (Z.ltb_spec w c).
        - cbn [E]. rewrite Hg by auto. rewrite (proj2 (Z.eqb_neq c w)) by lia. destruct (Z.eqb_spec c y).
          + rewrite (proj2 (Z.ltb_ge y w)) by lia. cbn [andb]. ring.
          + ring.
        - destruct (Z.eqb_spec c w) as [->|].
          + rewrite (IH ws (upd i w l) r0 a g f); auto; try lia; [|rewrite Su, Sw; reflexivity].
            rewrite S0, Sw, eqb_cons. fold agree low V. unfold X. rewrite (Z.eqb_sym w y).
            destruct (Z.eqb_spec y w) as [e|]; [|cbn [andb]; ring].
            rewrite (proj2 (Z.ltb_ge y w)) by lia. cbn [andb]. ring.
          + rewrite (fill_loop_lt i ws (upd i c l) r0 a f); auto; try lia.
            2:{ rewrite nth_upd_eq by lia. auto. }
            rewrite Su, S0, eqb_cons. unfold agree.
            assert (words_eqb (skipn (S i) ws) (skipn (S i) r0) = words_eqb (skipn (S i) r0) (skipn (S i) ws)) as ->.
            { apply Bool.eq_true_iff_eq. rewrite !words_eqb_spec. split; congruence. }
            destruct (Z.eqb_spec c y) as [e|]; [|cbn [andb]; ring].
            rewrite (proj2 (Z.ltb_lt y w)) by lia. cbn [andb]. ring. }
    rewrite !total_plus, !total_point, B_nat, total_above, B_nat by (rewrite B_nat; lia).
    rewrite (proj2 (Z.leb_le 0 w)), (proj2 (Z.ltb_lt w B)), (proj2 (Z.leb_le 0 y)), (proj2 (Z.ltb_lt y B)) by lia. cbn [andb].
    rewrite !val_firstn_S by lia. fold w y agree.
    assert (((val (firstn i r0) + y * Bn i) <? (val (firstn i ws) + w * Bn i))%Z = ((y <? w) || ((w =? y) && low))%Z%bool) as EL.
    { pose proof (val_bound _ (wf_firstn i _ W0)) as V1. pose proof (val_bound _ (wf_firstn i _ W)) as V2.
      rewrite firstn_length_le in V1 by lia. rewrite firstn_length_le in V2 by lia. pose proof (Bn_pos i) as BP. unfold low.
      clear - V1 V2 BP. destruct (Z.ltb_spec y w); cbn [orb]; [apply Z.ltb_lt; nia|].
      destruct (Z.eqb_spec w y) as [->|]; cbn [andb].
      - destruct (Z.ltb_spec (val (firstn i r0)) (val (firstn i ws))); [apply Z.ltb_lt|apply Z.ltb_ge]; lia.
      - apply Z.ltb_ge. nia. }
    assert ((val (firstn i r0) + Bn i * y <? val (firstn i ws) + Bn i * w)%Z = ((y <? w) || ((w =? y) && low))%Z%bool) as EL'
      by (rewrite <- EL; f_equal; ring).
    rewrite ?EL, ?EL'. rewrite !bq_S, !inject_Z_plus, !inject_Z_mult. fold V. fold (bq i). unfold X.
    assert (inject_Z (B - 1 - w) == inject_Z B - 1 - inject_Z w) as -> by (unfold Zminus; rewrite !inject_Z_plus, !inject_Z_opp; reflexivity).
    pose proof (bq_nonzero i) as QN.
    destruct (Z.ltb_spec y w) as [Lyw|Lyw].
    + rewrite (proj2 (Z.eqb_neq w y)) by lia. destruct agree; cbn [andb orb]; field; auto.
    + destruct (w =? y)%Z, agree, low; cbn [andb orb]; field; auto.
Qed.

(** The probability of failure of one attempt. *)
Definition qfail (ws : list Z) : Q :=
  let n := length ws in
  (1 - inject_Z (val (firstn (n - 1) ws)) / bq (n - 1)) / inject_Z (nth (n - 1) ws 0%Z + 1).

Lemma try_fill_E ws l r0 a g (f : res (bool * list Z) -> Q) :
  (0 < length ws)%nat -> length l = length ws -> wf ws -> wf l -> wf r0 -> length r0 = length ws -> (val r0 < val ws)%Z ->
  (forall l', wf l' -> length l' = length ws -> f (Ok (true, l')) == if words_eqb l' r0 then a else 0) ->
  (forall l', wf l' -> length l' = length ws -> f (Ok (false, l')) == g) ->
  E (try_fill_uniform ws l) f == a / (inject_Z (nth (length ws - 1) ws 0%Z + 1) * bq (length ws - 1)) + qfail ws * g.
Proof.
  intros L Ll W Wl W0 L0 Hv Ht Hg. unfold try_fill_uniform. rewrite Ll, Nat.eqb_refl, (proj2 (Nat.ltb_lt _ _)) by lia. cbn [andb assert lift rbind].
  unfold qfail. set (i := (length ws - 1)%nat). assert (i < length ws)%nat as Li by lia.
  set (w := nth i ws 0%Z). set (y := nth i r0 0%Z).
  pose proof (wf_nth i ws W Li) as Hw. fold w in Hw. pose proof (wf_nth i r0 W0 ltac:(lia)) as Hy. fold y in Hy.
  rewrite get_nth by lia. cbn [lift rbind]. fold w. unfold gen_range. rewrite (proj2 (Z.ltb_lt _ _)) by lia. cbn [rbind E].
  set (low := (val (firstn i r0) <? val (firstn i ws))%Z).
  set (X := (if ((w =? y)%Z && low)%bool then a / bq i else 0) + (1 - inject_Z (val (firstn i ws)) / bq i) * g).
  assert (Z.of_nat (Z.to_nat (w + 1)) = w + 1)%Z as Ew by lia.
  rewrite (total_ext _ _ (fun c => (if (c =? w)%Z then X else 0) + (if (c =? y)%Z then (if (y <? w)%Z then a / bq i else 0) else 0))).
  2:{ intros c Hc. rewrite Ew in Hc. rewrite set_upd by lia. cbn [lift rbind].
      assert (wf (upd i c l)) as Wu by (apply wf_upd; auto; lia). assert (length (upd i c l) = length ws) as Lu by (rewrite length_upd; auto).
      assert (skipn i (upd i c l) = [c]) as Su by (rewrite skipn_upd, skipn_all2 by lia; reflexivity).
      assert (skipn i r0 = [y]) as S0 by (rewrite skipn_nth_cons, skipn_all2 by lia; reflexivity).
      assert (skipn i ws = [w]) as Sw by (rewrite skipn_nth_cons, skipn_all2 by lia; reflexivity).
      destruct (Z.eqb_spec c w) as [->|].
      - rewrite (fill_loop_eq i ws (upd i w l) r0 a g f); auto; [|congruence].
        rewrite S0, Sw. cbn [words_eqb]. rewrite andb_true_r. fold low. unfold X. rewrite (Z.eqb_sym w y).
        destruct (Z.eqb_spec y w) as [e|]; [|cbn [andb]; ring]. rewrite (proj2 (Z.ltb_ge y w)) by lia. cbn [andb]. ring.
      - rewrite (fill_loop_lt i ws (upd i c l) r0 a f); auto.
        2:{ rewrite nth_upd_eq by lia. auto. }
        rewrite Su, S0. cbn [words_eqb]. rewrite andb_true_r. destruct (Z.eqb_spec c y) as [e|]; [|ring].
        rewrite (proj2 (Z.ltb_lt y w)) by lia. ring. }
  rewrite total_plus, !total_point, Ew.
  rewrite (proj2 (Z.leb_le 0 w)), (proj2 (Z.ltb_lt w (w + 1))), (proj2 (Z.leb_le 0 y)) by lia. cbn [andb].
  assert (y <= w)%Z as Lyw.
  { rewrite (val_split_at i r0), (val_split_at i ws) in Hv by lia.
    rewrite (skipn_nth_cons r0), (skipn_nth_cons ws) in Hv by lia. rewrite !skipn_all2 in Hv by lia. cbn [val] in Hv. fold w y in Hv.
    pose proof (val_nonneg _ (wf_firstn i _ W0)) as V1. pose proof (val_bound _ (wf_firstn i _ W)) as V2.
    rewrite firstn_length_le in V2 by lia. clear - Hv V1 V2. nia. }
  rewrite (proj2 (Z.ltb_lt y (w + 1))) by lia.
  pose proof (bq_nonzero i) as QN. assert (~ inject_Z (w + 1) == 0) as WN by (apply inject_nonzero; lia).
  unfold X. destruct (Z.ltb_spec y w).
  - rewrite (proj2 (Z.eqb_neq w y)) by lia. cbn [andb]. field. auto.
  - assert (y = w) as Eyw by lia. rewrite Eyw, Z.eqb_refl. cbn [andb].
    assert (low = true) as ->.
    { apply Z.ltb_lt. rewrite (val_split_at i r0), (val_split_at i ws) in Hv by lia.
      rewrite (skipn_nth_cons r0), (skipn_nth_cons ws) in Hv by lia. rewrite !skipn_all2 in Hv by lia. cbn [val] in Hv. fold w y in Hv. rewrite Eyw in Hv. lia. }
    field. auto.
Qed.

(** ** Repeated attempts *)

Lemma pfail_val ws : wf ws -> (0 < length ws)%nat ->
  inject_Z (val ws) == (1 - qfail ws) * (inject_Z (nth (length ws - 1) ws 0%Z + 1) * bq (length ws - 1)).
Proof.
  intros W L. unfold qfail. set (i := (length ws - 1)%nat). pose proof (wf_nth i ws W ltac:(lia)) as Hw.
  rewrite (val_split_at i ws) by lia. rewrite (skipn_nth_cons ws), skipn_all2 by lia. cbn [val].
  rewrite !inject_Z_plus, !inject_Z_mult, inject_Z_plus, !inject_Z_mult. fold (bq i). change (inject_Z 0) with 0. change (inject_Z 1) with 1.
  assert (~ inject_Z (nth i ws 0%Z) + 1 == 0) as N.
  { change 1 with (inject_Z 1). rewrite <- inject_Z_plus. apply inject_nonzero. lia. }
  field. split; auto using bq_nonzero.
Qed.

Lemma attempts_E k : forall ws l r0 (f : res (option (list Z)) -> Q),
  (0 < length ws)%nat -> length l = length ws -> wf ws -> wf l -> wf r0 -> length r0 = length ws -> (val r0 < val ws)%Z ->
  (forall l', wf l' -> length l' = length ws -> f (Ok (Some l')) == if words_eqb l' r0 then 1 else 0) ->
  f (Ok None) == 0 ->
  E (uniform_attempts k ws l) f == (1 - qpow (qfail ws) k) / inject_Z (val ws).
Proof.
  induction k as [|k IH]; intros ws l r0 f L Ll W Wl W0 L0 Hv Ht Hn.
  - cbn [uniform_attempts E qpow]. rewrite Hn. unfold Qdiv. ring.
  - cbn [uniform_attempts qpow]. rewrite E_bind.
    rewrite (try_fill_E ws l r0 1 ((1 - qpow (qfail ws) k) / inject_Z (val ws))); auto.
    2:{ intros l' W' L'. apply (IH ws l' r0 f); auto. }
    set (D := inject_Z (nth (length ws - 1) ws 0%Z + 1) * bq (length ws - 1)).
    assert (~ inject_Z (val ws) == 0) as VN by (apply inject_nonzero; pose proof (val_nonneg _ W0); lia).
    assert (~ D == 0) as DN.
    { unfold D. intros X. apply Qmult_integral in X as [X|X]; [|apply (bq_nonzero _ X)].
      revert X. apply inject_nonzero. pose proof (wf_nth (length ws - 1) ws W ltac:(lia)). lia. }
    pose proof (pfail_val ws W L) as PV. fold D in PV.
    assert (1 / D == (1 - qfail ws) / inject_Z (val ws)) as ->.
    { rewrite PV. field. split; [auto|]. intros X. apply VN. rewrite PV, X. ring. }
    field. auto.
Qed.

Lemma qfail_bounds ws : wf ws -> (0 < length ws)%nat -> last ws 0%Z <> 0%Z -> 0 <= qfail ws <= 1 # 2.
Proof.
  intros W L T. unfold qfail. set (i := (length ws - 1)%nat). pose proof (wf_nth i ws W ltac:(lia)) as Hw.
  assert (nth i ws 0%Z <> 0%Z) as Nw.
  { destruct ws as [|x t] using rev_ind; [cbn in L; lia|]. rewrite last_last in T. unfold i. rewrite app_length. cbn [length].
    rewrite app_nth2 by lia. replace (length t + 1 - 1 - length t)%nat with 0%nat by lia. cbn. auto. }
  pose proof (val_bound _ (wf_firstn i _ W)) as V. rewrite firstn_length_le in V by lia.
  set (w := nth i ws 0%Z) in *. set (v := val (firstn i ws)) in *. clearbody w v.
  assert (inject_Z (w + 1) >= 2) as W2 by (change 2 with (inject_Z 2); unfold Qle; cbn; lia).
  assert (0 <= inject_Z v / bq i) as F1.
  { apply Qle_shift_div_l; [unfold bq; change 0 with (inject_Z 0); rewrite <- Zlt_Qlt; apply V || (pose proof (Bn_pos i); lia)|].
    rewrite Qmult_0_l. change 0 with (inject_Z 0). rewrite <- Zle_Qle. lia. }
  assert (inject_Z v / bq i <= 1) as F2.
  { apply Qle_shift_div_r; [unfold bq; change 0 with (inject_Z 0); rewrite <- Zlt_Qlt; pose proof (Bn_pos i); lia|].
    rewrite Qmult_1_l. unfold bq. rewrite <- Zle_Qle. lia. }
  set (F := inject_Z v / bq i) in *. clearbody F. set (d := inject_Z (w + 1)) in *. clearbody d.
  split.
  - apply Qle_shift_div_l; [lra|]. lra.
  - apply Qle_shift_div_r; [lra|]. lra.
Qed.

Open Scope Z_scope.

(** ** UBig::uniform *)

Definition sampled (v : Z) (r : res (option ubig)) : bool :=
  match r with Ok (Some u) => uval u =? v | _ => false end.

Lemma words_exist n v : 0 <= v < Bn n -> exists l, wf l /\ length l = n /\ val l = v.
Proof.
  pose proof B_ge as HB. revert v; induction n as [|n IH]; intros v H.
  - exists []. rewrite Bn_0 in H. repeat split; [constructor|cbn; lia].
  - rewrite Bn_S in H. assert (0 < B) as PB by lia. assert (v = B * (v / B) + v mod B) as D by (apply Z.div_mod; lia). pose proof (Z.mod_pos_bound v B PB) as M.
    destruct (IH (v / B)) as (l & W & L & V).
    { split; [apply Z.div_pos; lia|]. apply Z.div_lt_upper_bound; lia. }
    exists (v mod B :: l). split; [constructor; auto|]. split; [cbn; lia|]. cbn [val]. rewrite V. lia.
Qed.

Lemma uniform_large_spec k b : ubig_ok (Large b) ->
  all (uniform_large k (words b)) (fun r => r = Ok None \/ exists u, r = Ok (Some u) /\ ubig_ok u /\ 0 <= uval u < val (words b)) /\
  forall v, 0 <= v < val (words b) ->
    (E (uniform_large k (words b)) (fun r => if sampled v r then 1 else 0) ==
      (1 - qpow (qfail (words b)) k) / inject_Z (val (words b)))%Q.
Proof.
  intros H. pose proof (ubig_ok_val _ H) as HV. cbn [uval] in HV. pose proof H as (W & L & T & LM & _). set (ws := words b) in *. clearbody ws.
  pose proof (len_nonneg ws) as Ln. unfold uniform_large.
  destruct (allocate_spec (len ws)) as (c & -> & Hc & _); [unfold MAX_CAPACITY; lia|]. cbn [bind].
  unfold push_zeros. unfold blen. cbn [words cap app]. change (len []) with 0. fold (len ws).
  rewrite check_true by lia. cbn [lift rbind words cap].
  assert (wf (repeat 0 (length ws))) as W0.
  { apply Forall_forall. intros x Hx. apply repeat_spec in Hx. subst. unfold word_ok. pose proof B_ge. lia. }
  assert (length (repeat 0 (length ws)) = length ws) as L0 by apply repeat_length.
  assert (forall l', wf l' -> length l' = length ws -> val l' < val ws ->
    exists u, from_buffer (mkBuffer l' c) = Ok u /\ ubig_ok u /\ uval u = val l') as FB.
  { intros l' W' L' V'. destruct (from_buffer_yields (mkBuffer l' c)) as [Y _].
    { split; [auto|]. unfold blen, len. cbn [words cap]. unfold len in Hc. rewrite L'. lia. }
    cbn [words] in Y. destruct Y as (u & E1 & E2 & E3); [lia|]. eauto. }
  split.
  - apply all_bind. eapply all_impl; [|apply attempts_all; eauto; lia].
    intros r [-> | (l' & -> & W' & L' & V')]; cbn [all]; [auto|].
    destruct (FB l' W' L' V') as (u & -> & Hu & Vu). cbn [lift rbind all]. right. exists u. rewrite Vu. pose proof (val_nonneg _ W'). auto.
  - intros v Hv. pose proof (val_bound _ W) as Vb. destruct (words_exist (length ws) v) as (r0 & Wr & Lr & Vr); [lia|].
    rewrite E_bind.
    set (f := fun r : res (option (list Z)) => match r with Ok x => E match x with Some r => rbind (lift (from_buffer (mkBuffer r c))) (fun u => Ret (Some u)) | None => Ret None end (fun r => if sampled v r then 1%Q else 0%Q) | Panic p => (if sampled v (Panic p) then 1%Q else 0%Q) end).
    set (g := fun r : res (option (list Z)) => match r with Ok (Some l) => (if words_eqb l r0 then 1 else 0)%Q | _ => 0%Q end).
    rewrite (E_ext_all _ _ f g (attempts_all k ws (repeat 0 (length ws)) ltac:(lia) L0 W W0)).
    + apply (attempts_E k ws _ r0); auto; try lia; [intros; reflexivity|reflexivity].
    + intros r [-> | (l' & -> & W' & L' & V')]; unfold f, g; cbn [E sampled]; [reflexivity|].
      destruct (FB l' W' L' V') as (u & -> & Hu & Vu). cbn [lift rbind E sampled]. rewrite Vu.
      destruct (Z.eqb_spec (val l') v) as [e|ne].
      * assert (l' = r0) as -> by (apply val_inj; auto; congruence). rewrite (proj2 (words_eqb_spec r0 r0)) by auto. reflexivity.
      * destruct (words_eqb l' r0) eqn:Q; [|reflexivity]. apply words_eqb_spec in Q. congruence.
Qed.

Definition range_q (range : ubig) : Q := match range with Small _ => 0 | Large b => qfail (words b) end.

Lemma uniform_spec k range : ubig_ok range -> uval range <> 0 ->
  all (uniform k range) (fun r => r = Ok None \/ exists u, r = Ok (Some u) /\ ubig_ok u /\ 0 <= uval u < uval range) /\
  (0 <= range_q range <= 1 # 2)%Q /\
  forall v, (0 < k)%nat -> 0 <= v < uval range ->
    (E (uniform k range) (fun r => if sampled v r then 1 else 0) == (1 - qpow (range_q range) k) / inject_Z (uval range))%Q.
Proof.
  intros H N. unfold uniform. pose proof (ubig_is_zero range H) as Z0.
  destruct (ubig_eqb range (from_word 0)); [exfalso; apply N, Z0; auto|]. cbn [negb assert lift rbind].
  destruct range as [w|b]; cbn [range_q uval] in *.
  - cbn in H. unfold gen_range. rewrite (proj2 (Z.ltb_lt _ _)) by lia. cbn [rbind].
    split; [|split; [lra|]].
    + cbn [all]. intros c Hc. right. exists (Small c). cbn. repeat split; lia.
    + intros v Hk Hv. cbn [E]. rewrite (total_ext _ _ (fun c => if (c =? v)%Z then 1 else 0)%Q).
      2:{ intros c Hc. cbn [sampled from_word uval]. reflexivity. }
      rewrite total_point, (proj2 (Z.leb_le 0 v)), (proj2 (Z.ltb_lt v _)) by lia. cbn [andb].
      destruct k; [lia|]. cbn [qpow]. unfold Qdiv. ring.
  - destruct (uniform_large_spec k b H) as [H1 H2]. split; [auto|]. destruct H as (W & L & T & _).
    split; [apply qfail_bounds; auto; lia|]. auto.
Qed.

(** ** The samplers *)

Lemma ubig_sampler k range offset : ubig_ok range -> uval range <> 0 -> ubig_ok offset -> uval range + uval offset <= MAXV ->
  let s := mkUniformUBig range offset in
  all (uniform_ubig_sample k s) (fun r => r = Ok None \/ exists u, r = Ok (Some u) /\ ubig_ok u /\ uval offset <= uval u < uval range + uval offset) /\
  forall v, (0 < k)%nat -> uval offset <= v < uval range + uval offset ->
    (E (uniform_ubig_sample k s) (fun r => if sampled v r then 1 else 0) == (1 - qpow (range_q range) k) / inject_Z (uval range))%Q.
Proof.
  intros Hr Nr Ho L s. destruct (uniform_spec k range Hr Nr) as (A1 & _ & A2). unfold uniform_ubig_sample. cbn [urange uoffset s].
  assert (forall u, ubig_ok u -> 0 <= uval u < uval range -> exists u', ubig_add_vr u offset = Ok u' /\ ubig_ok u' /\ uval u' = uval u + uval offset) as AD.
  { intros u Hu Vu. destruct (ubig_add_vr_yields u offset Hu Ho) as [Y _]. apply Y. lia. }
  split.
  - apply all_bind. eapply all_impl; [|apply A1]. intros r [-> | (u & -> & Hu & Vu)]; cbn [all]; [auto|].
    destruct (AD u Hu Vu) as (u' & -> & Hu' & V'). cbn [lift rbind all]. right. exists u'. repeat split; auto; lia.
  - intros v Hk Hv. rewrite E_bind. rewrite <- (A2 (v - uval offset) Hk) by lia.
    apply (E_ext_all _ _ _ _ A1). intros r [-> | (u & -> & Hu & Vu)]; cbn [E sampled]; [reflexivity|].
    destruct (AD u Hu Vu) as (u' & -> & Hu' & V'). cbn [lift rbind E sampled]. rewrite V'.
    destruct (Z.eqb_spec (uval u + uval offset) v), (Z.eqb_spec (uval u) (v - uval offset)); try reflexivity; lia.
Qed.

Lemma ubig_sampler_samples range offset : ubig_ok range -> uval range <> 0 -> ubig_ok offset -> uval range + uval offset <= MAXV ->
  samples_ubig (fun k => uniform_ubig_sample k (mkUniformUBig range offset)) (uval offset) (uval range + uval offset).
Proof.
  intros Hr Nr Ho L. split.
  - intros k cs r R. apply (all_runs _ _ (proj1 (ubig_sampler k range offset Hr Nr Ho L)) cs r R).
  - exists (range_q range). split; [apply (uniform_spec 0 range Hr Nr)|]. intros k v Hk Hv. rewrite prob_E.
    replace (uval range + uval offset - uval offset) with (uval range) by lia.
    apply (proj2 (ubig_sampler k range offset Hr Nr Ho L)); auto.
Qed.

Lemma ubig_new_spec low high : ubig_ok low -> ubig_ok high ->
  (uval low < uval high -> exists s, uniform_ubig_new low high = Ok s /\ samples_ubig (fun k => uniform_ubig_sample k s) (uval low) (uval high)) /\
  (uval low = uval high -> uniform_ubig_new low high = Panic EmptyRange) /\
  (uval high < uval low -> uniform_ubig_new low high = Panic NegativeUBig).
Proof.
  intros Hl Hh. destruct (ubig_sub_rr_yields high low Hh Hl) as [Y1 Y2]. unfold uniform_ubig_new.
  pose proof (ubig_ok_val _ Hh) as Mh. pose proof (uval_nonneg _ Hl) as Nl.
  split; [|split]; intros L.
  - destruct (Y1 ltac:(lia)) as [Y _]. destruct (Y ltac:(lia)) as (d & -> & Hd & Vd). cbn [bind].
    pose proof (ubig_is_zero d Hd) as Z0. destruct (ubig_eqb d (from_word 0)); [assert (uval d = 0) by (apply Z0; auto); lia|].
    destruct (ubig_clone_spec low Hl) as (o & -> & Ho & Vo). cbn [bind]. eexists; split; [reflexivity|].
    replace (uval high) with (uval d + uval o) by lia. rewrite <- Vo. apply ubig_sampler_samples; auto; lia.
  - destruct (Y1 ltac:(lia)) as [Y _]. destruct (Y ltac:(lia)) as (d & -> & Hd & Vd). cbn [bind].
    rewrite (proj2 (ubig_is_zero d Hd)) by lia. reflexivity.
  - rewrite (Y2 ltac:(lia)). reflexivity.
Qed.

Lemma one_word_ok : ubig_ok (from_word 1).
Proof. cbn. pose proof B_ge. lia. Qed.

Lemma ubig_new_inclusive_spec low high : ubig_ok low -> ubig_ok high ->
  (uval low <= uval high -> uval high - uval low + 1 < MAXV ->
    exists s, uniform_ubig_new_inclusive low high = Ok s /\ samples_ubig (fun k => uniform_ubig_sample k s) (uval low) (uval high + 1)) /\
  (uval high - uval low + 1 = MAXV -> uniform_ubig_new_inclusive low high = Panic NumberTooLarge) /\
  (uval high < uval low -> uniform_ubig_new_inclusive low high = Panic NegativeUBig).
Proof.
  intros Hl Hh. destruct (ubig_sub_rr_yields high low Hh Hl) as [Y1 Y2]. unfold uniform_ubig_new_inclusive.
  pose proof (ubig_ok_val _ Hh) as Mh. pose proof (ubig_ok_val _ Hl) as Ml. pose proof (uval_nonneg _ Hl) as Nl. pose proof (uval_nonneg _ Hh) as Nh.
  assert (1 < MAXV) as M1 by (pose proof (ubig_ok_val _ one_word_ok); cbn [from_word uval] in *; lia).
  split; [intros L L2|split; intros L].
  - destruct (Y1 ltac:(lia)) as [Y _]. destruct (Y ltac:(lia)) as (d & -> & Hd & Vd). cbn [bind].
    destruct (ubig_add_vv_yields d (from_word 1) Hd one_word_ok) as [Y' _]. cbn [from_word uval] in Y'.
    destruct (Y' ltac:(lia)) as (r & E1 & Hr & Vr). rewrite E1. cbn [bind].
    destruct (ubig_clone_spec low Hl) as (o & -> & Ho & Vo). cbn [bind]. eexists; split; [reflexivity|].
    replace (uval high + 1) with (uval r + uval o) by lia. rewrite <- Vo. apply ubig_sampler_samples; auto; lia.
  - destruct (Y1 ltac:(lia)) as [Y _]. destruct (Y ltac:(lia)) as (d & -> & Hd & Vd). cbn [bind].
    destruct (ubig_add_vv_yields d (from_word 1) Hd one_word_ok) as [_ Y']. cbn [from_word uval] in Y'.
    rewrite Y' by (unfold from_word; cbn [uval]; lia). reflexivity.
  - rewrite (Y2 ltac:(lia)). reflexivity.
Qed.

Lemma ibig_sampler_samples range offset : ubig_ok range -> uval range <> 0 -> ibig_ok offset -> uval range + ival offset <= MAXV ->
  samples_ibig (fun k => uniform_ibig_sample k (mkUniformIBig range offset)) (ival offset) (uval range + ival offset).
Proof.
  intros Hr Nr Ho L. pose proof (ibig_ok_val _ Ho) as Mo.
  assert (forall u, ubig_ok u -> 0 <= uval u < uval range -> exists x, ibig_add_vr (ibig_from_ubig u) offset = Ok x /\ ibig_ok x /\ ival x = uval u + ival offset) as AD.
  { intros u Hu Vu. destruct (ibig_from_ubig_spec u Hu) as [F1 F2]. destruct (ibig_add_vr_yields _ offset F1 Ho) as [Y _]. rewrite F2 in Y. apply Y. lia. }
  assert (forall k, all (uniform_ibig_sample k (mkUniformIBig range offset)) (fun r => r = Ok None \/ exists x, r = Ok (Some x) /\ ibig_ok x /\ ival offset <= ival x < uval range + ival offset)) as AL.
  { intros k. destruct (uniform_spec k range Hr Nr) as (A1 & _ & A2). unfold uniform_ibig_sample. cbn [irange ioffset].
    apply all_bind. eapply all_impl; [|apply A1]. intros r [-> | (u & -> & Hu & Vu)]; cbn [all]; [auto|].
    destruct (AD u Hu Vu) as (u' & -> & Hu' & V'). cbn [lift rbind all]. right. exists u'. split; [reflexivity|]. split; [auto|lia]. }
  split.
  - intros k cs r R. apply (all_runs _ _ (AL k) cs r R).
  - exists (range_q range). split; [apply (uniform_spec 0 range Hr Nr)|]. intros k v Hk Hv. rewrite prob_E.
    destruct (uniform_spec k range Hr Nr) as (A1 & _ & A2). unfold uniform_ibig_sample. cbn [irange ioffset]. rewrite E_bind.
    replace (uval range + ival offset - ival offset) with (uval range) by lia. rewrite <- (A2 (v - ival offset) Hk) by lia.
    apply (E_ext_all _ _ _ _ A1). intros r [-> | (u & -> & Hu & Vu)]; cbn [E sampled]; [reflexivity|].
    destruct (AD u Hu Vu) as (u' & -> & Hu' & V'). cbn [lift rbind E]. rewrite V'.
    destruct (Z.eqb_spec (uval u + ival offset) v), (Z.eqb_spec (uval u) (v - ival offset)); try reflexivity; lia.
Qed.

Lemma not_positive_spec x : ibig_ok x -> not_positive x = Ok (ival x <=? 0).
Proof.
  intros H. unfold not_positive. destruct (ibig_from_unsigned_spec 8 0) as (z & -> & Hz & Ez); [left; reflexivity|lia|]. cbn [bind].
  rewrite ibig_cmp_spec, Ez by auto. cbn [bind]. destruct (Z.compare_spec (ival x) 0); f_equal; symmetry; lia.
Qed.

Lemma ibig_new_spec low high : ibig_ok low -> ibig_ok high ->
  (ival low < ival high -> ival high - ival low < MAXV ->
    exists s, uniform_ibig_new low high = Ok s /\ samples_ibig (fun k => uniform_ibig_sample k s) (ival low) (ival high)) /\
  (ival high <= ival low -> ival low - ival high < MAXV -> uniform_ibig_new low high = Panic EmptyRange) /\
  (MAXV <= Z.abs (ival high - ival low) -> uniform_ibig_new low high = Panic NumberTooLarge).
Proof.
  intros Hl Hh. destruct (ibig_sub_rr_yields high low Hh Hl) as [Y1 Y2]. unfold uniform_ibig_new.
  pose proof (ibig_ok_val _ Hh) as Mh.
  split; [intros L L2|split; [intros L L2|intros L]].
  - destruct (Y1 ltac:(lia)) as (d & -> & Hd & Vd). cbn [bind]. rewrite not_positive_spec by auto. cbn [bind].
    rewrite (proj2 (Z.leb_gt _ _)) by lia. destruct (ibig_clone_spec low Hl) as (o & -> & Ho & Vo). cbn [bind].
    eexists; split; [reflexivity|]. unfold unsigned_abs. pose proof (ibig_abs_val d Hd) as Ad.
    replace (ival high) with (uval (imag d) + ival o) by lia. rewrite <- Vo. apply ibig_sampler_samples; auto; try lia. apply Hd.
  - destruct (Y1 ltac:(lia)) as (d & -> & Hd & Vd). cbn [bind]. rewrite not_positive_spec by auto. cbn [bind].
    rewrite (proj2 (Z.leb_le _ _)) by lia. reflexivity.
  - rewrite (Y2 L). reflexivity.
Qed.

Lemma ibig_new_inclusive_spec low high : ibig_ok low -> ibig_ok high ->
  (ival low <= ival high -> ival high - ival low + 1 < MAXV ->
    exists s, uniform_ibig_new_inclusive low high = Ok s /\ samples_ibig (fun k => uniform_ibig_sample k s) (ival low) (ival high + 1)) /\
  (ival high < ival low -> ival low - ival high < MAXV -> uniform_ibig_new_inclusive low high = Panic EmptyRange) /\
  (MAXV <= ival high - ival low + 1 \/ MAXV <= ival low - ival high -> uniform_ibig_new_inclusive low high = Panic NumberTooLarge).
Proof.
  intros Hl Hh. destruct (ibig_sub_rr_yields high low Hh Hl) as [Y1 Y2]. unfold uniform_ibig_new_inclusive.
  pose proof (ibig_ok_val _ Hh) as Mh. pose proof (ibig_ok_val _ Hl) as Ml.
  destruct (ibig_from_unsigned_spec 8 1) as (one & E1 & H1 & V1); [left; reflexivity|lia|].
  assert (1 < MAXV) as M1 by (pose proof (ibig_ok_val _ H1); lia).
  split; [intros L L2|split; [intros L L2|intros L]].
  - destruct (Y1 ltac:(lia)) as (d & -> & Hd & Vd). cbn [bind]. rewrite E1. cbn [bind].
    destruct (ibig_add_vv_yields d one Hd H1) as [Y _]. destruct (Y ltac:(lia)) as (r & -> & Hr & Vr). cbn [bind].
    rewrite not_positive_spec by auto. cbn [bind].
    rewrite (proj2 (Z.leb_gt _ _)) by lia. destruct (ibig_clone_spec low Hl) as (o & -> & Ho & Vo). cbn [bind].
    eexists; split; [reflexivity|]. unfold unsigned_abs. pose proof (ibig_abs_val r Hr) as Ad.
    replace (ival high + 1) with (uval (imag r) + ival o) by lia. rewrite <- Vo. apply ibig_sampler_samples; auto; try lia. apply Hr.
  - destruct (Y1 ltac:(lia)) as (d & -> & Hd & Vd). cbn [bind]. rewrite E1. cbn [bind].
    destruct (ibig_add_vv_yields d one Hd H1) as [Y _]. destruct (Y ltac:(lia)) as (r & -> & Hr & Vr). cbn [bind].
    rewrite not_positive_spec by auto. cbn [bind]. rewrite (proj2 (Z.leb_le _ _)) by lia. reflexivity.
  - destruct (Z.le_gt_cases MAXV (Z.abs (ival high - ival low))) as [G|G]; [rewrite (Y2 G); reflexivity|].
    destruct (Y1 G) as (d & -> & Hd & Vd). cbn [bind]. rewrite E1. cbn [bind].
    destruct (ibig_add_vv_yields d one Hd H1) as [_ Y]. rewrite Y by lia. reflexivity.
Qed.
End RandProofs.
