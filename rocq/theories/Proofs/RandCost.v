(** The number of random words drawn. *)
From Verif Require Import Model.Base Model.Words Model.Buffer Model.UBig Model.IBig Model.Convert Model.AddOps Model.Rand
  Spec.Val Spec.Num Spec.Prim Spec.Rand Spec.Draws Proofs.Basics Proofs.AddProofs Proofs.BufferProofs Proofs.ConvertProofs Proofs.AddOpsProofs
  Proofs.DivOpsProofs Proofs.RandProofs Proofs.CostFmtSteps.
From Coq Require Import QArith Lia Lqa.
Open Scope Z_scope.

(** * At most so many draws, whatever the answers *)
Fixpoint atmost {T} (m : rand T) (N : Z) : Prop :=
  match m with
  | Ret _ | Fail _ => 0 <= N
  | Pick n k => 1 <= N /\ forall c, 0 <= c < n -> atmost (k c) (N - 1)
  end.

Lemma atmost_mono {T} (m : rand T) : forall N N', N <= N' -> atmost m N -> atmost m N'.
Proof.
  induction m as [x|p|n k IH]; intros N N' L; cbn [atmost]; try lia.
  intros [H1 H2]. split; [lia|]. intros c Hc. apply (IH c (N - 1)); [lia|apply H2, Hc].
Qed.
Lemma atmost_runs {T} (m : rand T) cs r : runs m cs r -> forall N, atmost m N -> Z.of_nat (length cs) <= N.
Proof.
  intros R. induction R as [x|p|n k c cs r Hc R IH]; intros N H; cbn [atmost length] in *; try lia.
  destruct H as [_ H]. specialize (IH (N - 1) (H c Hc)). lia.
Qed.
Lemma atmost_bind {S T} (m : rand S) (k : S -> rand T) b : 0 <= b -> (forall x, atmost (k x) b) -> forall a, atmost m a -> atmost (rbind m k) (a + b).
Proof.
  intros P H. induction m as [x|p|n c IH]; intros a; cbn [atmost rbind].
  - intros Ha. apply (atmost_mono _ b); [lia|apply H].
  - lia.
  - intros [H1 H2]. split; [lia|]. intros i Hi. replace (a + b - 1) with (a - 1 + b) by lia. apply IH, H2, Hi.
Qed.
Lemma atmost_lift {T} (r : res T) : atmost (lift r) 0.
Proof. destruct r; cbn; lia. Qed.
(** Steps that draw nothing. *)
Lemma atmost_lift_bind {S T} (r : res S) (k : S -> rand T) N : 0 <= N -> (forall x, atmost (k x) N) -> atmost (rbind (lift r) k) N.
Proof. intros P H. change N with (0 + N). apply atmost_bind; auto using atmost_lift. Qed.

Lemma reply_runs {T} (m : rand T) : forall cs r, reply m cs = Some r -> runs m cs r.
Proof.
  induction m as [x|p|n k IH]; intros [|c cs] r; cbn [reply]; try discriminate.
  - intros E. injection E as <-. constructor.
  - intros E. injection E as <-. constructor.
  - destruct (Z.leb_spec 0 c), (Z.ltb_spec c n); cbn [andb]; try discriminate. intros E. constructor; [lia|apply IH, E].
Qed.

(** * Expected draws *)
Open Scope Q_scope.

Lemma total_le n f g : (forall c, (0 <= c < Z.of_nat n)%Z -> f c <= g c) -> total n f <= total n g.
Proof.
  induction n as [|n IH]; intros H; cbn [total]; [lra|].
  assert (total n f <= total n g) by (apply IH; intros; apply H; lia). assert (f (Z.of_nat n) <= g (Z.of_nat n)) by (apply H; lia). lra.
Qed.
Lemma total_const n a : total n (fun _ => a) == inject_Z (Z.of_nat n) * a.
Proof.
  induction n as [|n IH]; [cbn; ring|]. cbn [total]. rewrite IH. replace (Z.of_nat (S n)) with (Z.of_nat n + 1)%Z by lia. rewrite inject_Z_plus. ring.
Qed.
Lemma mean_le n f g : (forall c, (0 <= c < n)%Z -> f c <= g c) -> total (Z.to_nat n) f / inject_Z n <= total (Z.to_nat n) g / inject_Z n.
Proof.
  intros H. destruct (Z_lt_le_dec 0 n) as [P|P].
  - unfold Qdiv. apply Qmult_le_compat_r; [apply total_le; intros; apply H; lia|].
    apply Qinv_le_0_compat. change 0 with (inject_Z 0). rewrite <- Zle_Qle. lia.
  - replace (Z.to_nat n) with 0%nat by lia. cbn [total]. lra.
Qed.

Lemma E_le_all {T} (m : rand T) P f g : all m P -> (forall r, P r -> f r <= g r) -> E m f <= E m g.
Proof.
  intros H I. induction m as [x|p|n k IH]; cbn [E all] in *; auto.
  apply mean_le. intros c Hc. apply IH, H, Hc.
Qed.

Lemma draws_bind {S T} (m : rand S) (k : S -> rand T) :
  draws (rbind m k) == draws m + E m (fun r => match r with Ok x => draws (k x) | Panic _ => 0 end).
Proof.
  induction m as [x|p|n c IH]; cbn [rbind draws E]; try ring.
  rewrite (total_ext _ _ (fun i => draws (c i) + E (c i) (fun r => match r with Ok x => draws (k x) | Panic _ => 0 end))) by (intros; apply IH).
  rewrite total_plus. unfold Qdiv. ring.
Qed.

Lemma draws_atmost {T} (m : rand T) : forall N, atmost m N -> draws m <= inject_Z N.
Proof.
  induction m as [x|p|n k IH]; intros N; cbn [atmost draws].
  - intros H. change 0 with (inject_Z 0). rewrite <- Zle_Qle. exact H.
  - intros H. change 0 with (inject_Z 0). rewrite <- Zle_Qle. exact H.
  - intros [H1 H2]. assert (total (Z.to_nat n) (fun c => draws (k c)) / inject_Z n <= inject_Z (N - 1)) as M.
    { eapply Qle_trans; [apply mean_le; intros c Hc; apply (IH c (N - 1)%Z), H2, Hc|]. rewrite total_const.
      destruct (Z_lt_le_dec 0 n) as [P|P].
      - rewrite Z2Nat.id by lia. assert (~ inject_Z n == 0) by (apply inject_nonzero; exact P).
        assert (inject_Z n * inject_Z (N - 1) / inject_Z n == inject_Z (N - 1)) as -> by (field; auto). lra.
      - replace (Z.to_nat n) with 0%nat by lia. cbn [Z.of_nat]. assert (0 <= inject_Z (N - 1)) by (change 0 with (inject_Z 0); rewrite <- Zle_Qle; lia).
        change (inject_Z 0) with 0. unfold Qdiv. rewrite !Qmult_0_l. assumption. }
    replace N with (1 + (N - 1))%Z by lia. rewrite inject_Z_plus. change (inject_Z 1) with 1. replace (1 + (N - 1) - 1)%Z with (N - 1)%Z by lia. lra.
Qed.

Open Scope Z_scope.

Section RandCost.
Context {A : Arch} {AOK : ArchOk A}.

Lemma fill_atmost i : forall l, atmost (fill i l) (Z.of_nat i).
Proof.
  induction i as [|i IH]; intros l; cbn [fill]; [cbn; lia|].
  destruct l as [|x l]; [cbn [atmost]; lia|]. unfold gen_word. cbn [rbind atmost]. split; [lia|]. intros c _.
  replace (Z.of_nat (S i) - 1) with (Z.of_nat i + 0) by lia. apply atmost_bind; [lia|intros; cbn; lia|apply IH].
Qed.

Lemma fill_loop_atmost i : forall ws l, atmost (fill_loop i ws l) (Z.of_nat i).
Proof.
  induction i as [|i IH]; intros ws l; cbn [fill_loop]; (apply atmost_lift_bind; [lia|]); intros r; (apply atmost_lift_bind; [lia|]); intros w;
    destruct (r =? w).
  - cbn; lia.
  - cbn [fill rbind atmost]. lia.
  - unfold gen_word. cbn [rbind atmost]. split; [lia|]. intros c _. apply atmost_lift_bind; [lia|]. intros l'. apply atmost_lift_bind; [lia|]. intros w'.
    replace (Z.of_nat (S i) - 1) with (Z.of_nat i) by lia. destruct (w' <? c); [cbn; lia|apply IH].
  - replace (Z.of_nat (S i)) with (Z.of_nat (S i) + 0) by lia. apply atmost_bind; [lia|intros; cbn; lia|apply fill_atmost].
Qed.

Lemma try_fill_atmost ws l : atmost (try_fill_uniform ws l) (Z.of_nat (length ws)).
Proof.
  unfold try_fill_uniform. destruct (Nat.ltb_spec 0 (length ws)) as [C|C]; [|cbn; lia].
  apply atmost_lift_bind; [lia|]. intros _. apply atmost_lift_bind; [lia|]. intros w. unfold gen_range.
  destruct (0 <? w + 1); [|cbn; lia]. cbn [rbind atmost]. split; [lia|]. intros c _. apply atmost_lift_bind; [lia|]. intros l'.
  replace (Z.of_nat (length ws) - 1) with (Z.of_nat (length ws - 1)) by lia. apply fill_loop_atmost.
Qed.

Lemma attempts_atmost k : forall ws l, atmost (uniform_attempts k ws l) (Z.of_nat k * Z.of_nat (length ws)).
Proof.
  induction k as [|k IH]; intros ws l; cbn [uniform_attempts]; [cbn; lia|].
  replace (Z.of_nat (S k) * Z.of_nat (length ws)) with (Z.of_nat (length ws) + Z.of_nat k * Z.of_nat (length ws)) by lia.
  apply atmost_bind; [lia| |apply try_fill_atmost]. intros [ok l']. destruct ok; [cbn; lia|apply IH].
Qed.

Lemma attempts_draws k : forall ws l, wf ws -> (0 < length ws)%nat -> last ws 0 <> 0 -> wf l -> length l = length ws ->
  (draws (uniform_attempts k ws l) <= 2 * inject_Z (Z.of_nat (length ws)))%Q.
Proof.
  induction k as [|k IH]; intros ws l W L T Wl Ll; cbn [uniform_attempts].
  - cbn [draws]. assert (0 <= inject_Z (Z.of_nat (length ws)))%Q by (change 0%Q with (inject_Z 0); rewrite <- Zle_Qle; lia). lra.
  - rewrite draws_bind. pose proof (draws_atmost _ _ (try_fill_atmost ws l)) as D.
    set (n := inject_Z (Z.of_nat (length ws))) in *.
    assert (0 <= n)%Q as N0 by (unfold n; change 0%Q with (inject_Z 0); rewrite <- Zle_Qle; lia).
    set (g := fun r : res (bool * list Z) => match r with Ok (ok, _) => if ok : bool then 0%Q else (2 * n)%Q | Panic _ => 0%Q end).
    match goal with |- (_ + E ?m ?f <= _)%Q => assert (E m f <= E m g)%Q as M end.
    { apply (E_le_all _ _ _ _ (try_fill_all ws l L Ll W Wl)). intros r (ok & l' & -> & W' & L' & _). unfold g. cbv beta iota.
      destruct ok; [cbn [draws]; lra|]. apply IH; auto. }
    assert (wf (repeat 0 (length ws))) as W0.
    { apply Forall_forall. intros x Hx. apply repeat_spec in Hx. subst. unfold word_ok. pose proof B_ge. lia. }
    assert (val (repeat 0 (length ws)) < val ws) as V.
    { assert (val (repeat 0 (length ws)) = 0) as -> by (generalize (length ws); induction n0 as [|q Hq]; cbn [repeat val]; [|rewrite Hq]; lia).
      pose proof (val_nonneg _ W). destruct (Z.eq_dec (val ws) 0) as [Z0|]; [|lia]. exfalso. apply T.
      clear - W Z0 AOK. induction ws as [|x t IHt]; [reflexivity|]. cbn [val] in Z0. inversion W as [|? ? Wx Wt]; subst.
      pose proof (val_nonneg _ Wt). unfold word_ok in Wx. pose proof B_ge. assert (val t = 0) by nia. destruct t as [|y t']; [cbn; lia|]. apply IHt; auto. }
    assert (E (try_fill_uniform ws l) g == 0 / (inject_Z (nth (length ws - 1) ws 0%Z + 1) * bq (length ws - 1)) + qfail ws * (2 * n))%Q as EG.
    { apply (try_fill_E ws l (repeat 0 (length ws)) 0 (2 * n)); auto using repeat_length.
      - intros l' _ _. unfold g. destruct (words_eqb l' _); reflexivity.
      - intros l' _ _. reflexivity. }
    pose proof (qfail_bounds ws W L T) as [Q1 Q2]. unfold Qdiv in EG. rewrite Qmult_0_l, Qplus_0_l in EG. rewrite EG in M.
    assert (qfail ws * (2 * n) <= (1 # 2) * (2 * n))%Q as Q3 by (apply Qmult_le_compat_r; lra). lra.
Qed.

Definition range_len (range : ubig) : Z := match range with Small _ => 1 | Large b => len (words b) end.

Lemma range_len_pos range : ubig_ok range -> 1 <= range_len range.
Proof. destruct range as [w|b]; cbn [range_len]; [lia|]. intros (W & L & _). unfold blen, len in *. lia. Qed.

Lemma uniform_atmost k range : ubig_ok range -> atmost (uniform (S k) range) (Z.of_nat (S k) * range_len range).
Proof.
  intros H. pose proof (range_len_pos range H) as P. unfold uniform. apply atmost_lift_bind; [nia|]. intros _. destruct range as [w|b]; cbn [range_len] in *.
  - unfold gen_range. destruct (0 <? w); cbn [rbind atmost]; [|lia]. split; [lia|]. intros. lia.
  - unfold uniform_large. apply atmost_lift_bind; [nia|]. intros b'. unfold len.
    replace (Z.of_nat (S k) * Z.of_nat (length (words b))) with (Z.of_nat (S k) * Z.of_nat (length (words b)) + 0) by lia.
    apply atmost_bind; [lia| |apply attempts_atmost]. intros [r|]; [|cbn; lia]. apply atmost_lift_bind; [lia|]. intros u. cbn; lia.
Qed.

Lemma E_zero {T} (m : rand T) f : (forall r, f r == 0)%Q -> (E m f == 0)%Q.
Proof.
  intros H. induction m as [x|p|n k IH]; cbn [E]; auto. rewrite (total_ext _ _ (fun _ => 0%Q)) by (intros; apply IH).
  rewrite total_const. unfold Qdiv. ring.
Qed.
(** What follows draws nothing. *)
Lemma draws_then {S T} (m : rand S) (k : S -> rand T) : (forall x, draws (k x) == 0)%Q -> (draws (rbind m k) == draws m)%Q.
Proof. intros H. rewrite draws_bind, E_zero; [ring|]. intros [x|p]; [apply H|reflexivity]. Qed.
Lemma draws_lift {S T} (r : res S) (k : S -> rand T) N : (0 <= N -> (forall x, r = Ok x -> draws (k x) <= N) -> draws (rbind (lift r) k) <= N)%Q.
Proof. intros P H. destruct r as [x|p]; cbn [lift rbind draws]; auto. Qed.

Lemma uniform_draws k range : ubig_ok range -> (draws (uniform k range) <= 2 * inject_Z (range_len range))%Q.
Proof.
  intros H. pose proof (range_len_pos range H) as P. assert (1 <= inject_Z (range_len range))%Q as P' by (change 1%Q with (inject_Z 1); rewrite <- Zle_Qle; exact P).
  unfold uniform. apply draws_lift; [lra|]. intros _ _. destruct range as [w|b]; cbn [range_len] in *.
  - change (inject_Z 1) with 1%Q. unfold gen_range. destruct (0 <? w); cbn [rbind draws]; [|lra].
    rewrite total_const. unfold Qdiv. rewrite Qmult_0_r, Qmult_0_l. lra.
  - unfold uniform_large. apply draws_lift; [lra|]. intros b' E'. rewrite draws_then.
    2:{ intros [r|]; cbn [draws]; [|reflexivity]. destruct (from_buffer _); reflexivity. }
    destruct H as (W & L & T & LM & _). destruct (allocate_spec (len (words b))) as (c & A1 & Hc & _); [pose proof (len_nonneg (words b)); unfold MAX_CAPACITY; unfold len in *; lia|].
    rewrite A1 in E'. cbn [bind] in E'. unfold push_zeros, blen in E'. cbn [words cap app] in E'. change (len []) with 0 in E'. fold (len (words b)) in E'.
    rewrite check_true in E' by lia. injection E' as <-. cbn [words]. unfold len. apply attempts_draws; auto using repeat_length.
    + lia.
    + apply Forall_forall. intros x Hx. apply repeat_spec in Hx. subst. unfold word_ok. pose proof B_ge. lia.
Qed.

Lemma range_len_le range N : ubig_ok range -> 1 <= N -> uval range < 2 ^ (wbits * N) -> range_len range <= N.
Proof.
  intros H P L. destruct range as [w|b]; cbn [range_len]; [exact P|].
  rewrite Z.pow_mul_r in L by (pose proof wbits_ge; lia). destruct (ulen_le (Large b) N H L P) as [_ U]. exact U.
Qed.

Lemma ubig_range f hi low high s : ubig_ok low -> ubig_ok high ->
  In (f, hi) [(uniform_ubig_new, uval high); (uniform_ubig_new_inclusive, uval high + 1)] -> f low high = Ok s ->
  ubig_ok (urange s) /\ uval (urange s) = hi - uval low.
Proof.
  intros Hl Hh I E. destruct (ubig_sub_rr_yields high low Hh Hl) as [Y1 Y2].
  pose proof (ubig_ok_val _ Hh) as Mh. pose proof (uval_nonneg _ Hl) as Nl.
  destruct (Z_lt_le_dec (uval high) (uval low)) as [C|C].
  { destruct I as [I|[I|[]]]; injection I as <- <-; unfold uniform_ubig_new, uniform_ubig_new_inclusive in E; rewrite Y2 in E by lia; discriminate. }
  destruct (Y1 ltac:(lia)) as [Y _]. destruct (Y ltac:(lia)) as (d & Ed & Hd & Vd).
  destruct (ubig_clone_spec low Hl) as (o & Eo & _ & _).
  destruct I as [I|[I|[]]]; injection I as <- <-; unfold uniform_ubig_new, uniform_ubig_new_inclusive in E; rewrite Ed in E; cbn [bind] in E.
  - destruct (ubig_eqb d (from_word 0)); [discriminate|]. rewrite Eo in E. cbn [bind] in E. injection E as <-. cbn [urange]. split; [exact Hd|lia].
  - destruct (ubig_add_vv_yields d (from_word 1) Hd one_word_ok) as [Z1 Z2]. cbn [from_word uval] in Z1, Z2.
    destruct (Z_lt_le_dec (uval d + 1) MAXV) as [D|D].
    + destruct (Z1 D) as (r & Er & Hr & Vr). rewrite Er in E. cbn [bind] in E. rewrite Eo in E. cbn [bind] in E. injection E as <-. cbn [urange]. split; [exact Hr|lia].
    + rewrite (Z2 D) in E. discriminate.
Qed.

Theorem ubig_draws f hi low high s N : ubig_ok low -> ubig_ok high ->
  In (f, hi) [(uniform_ubig_new, uval high); (uniform_ubig_new_inclusive, uval high + 1)] -> f low high = Ok s ->
  1 <= N -> hi - uval low < 2 ^ (wbits * N) ->
  (forall k, draws (uniform_ubig_sample k s) <= 2 * inject_Z N)%Q /\
  (forall k cs r, (0 < k)%nat -> runs (uniform_ubig_sample k s) cs r -> Z.of_nat (length cs) <= Z.of_nat k * N).
Proof.
  intros Hl Hh I E P L. destruct (ubig_range f hi low high s Hl Hh I E) as [Hr Vr]. rewrite <- Vr in L.
  pose proof (range_len_le _ N Hr P L) as R. split.
  - intros k. unfold uniform_ubig_sample. rewrite draws_then.
    + eapply Qle_trans; [apply uniform_draws, Hr|]. rewrite Zle_Qle in R. lra.
    + intros [u|]; [|reflexivity]. destruct (ubig_add_vr _ _); reflexivity.
  - intros k cs r K G. destruct k as [|k]; [lia|]. apply (atmost_runs _ _ _ G). apply (atmost_mono _ (Z.of_nat (S k) * range_len (urange s) + 0)); [nia|].
    apply atmost_bind; [lia| |apply uniform_atmost, Hr]. intros [u|]; [|cbn; lia]. apply atmost_lift_bind; [lia|]. intros; cbn; lia.
Qed.

Lemma ibig_range f hi low high s : ibig_ok low -> ibig_ok high ->
  In (f, hi) [(uniform_ibig_new, ival high); (uniform_ibig_new_inclusive, ival high + 1)] -> f low high = Ok s ->
  ubig_ok (irange s) /\ uval (irange s) = hi - ival low.
Proof.
  intros Hl Hh I E. destruct (ibig_sub_rr_yields high low Hh Hl) as [Y1 Y2].
  destruct (Z_lt_le_dec (Z.abs (ival high - ival low)) MAXV) as [C|C].
  2:{ destruct I as [I|[I|[]]]; injection I as <- <-; unfold uniform_ibig_new, uniform_ibig_new_inclusive in E; rewrite Y2 in E by lia; discriminate. }
  destruct (Y1 C) as (d & Ed & Hd & Vd). destruct (ibig_clone_spec low Hl) as (o & Eo & _ & _).
  destruct I as [I|[I|[]]]; injection I as <- <-; unfold uniform_ibig_new, uniform_ibig_new_inclusive in E; rewrite Ed in E; cbn [bind] in E.
  - rewrite not_positive_spec in E by auto. cbn [bind] in E. destruct (Z.leb_spec (ival d) 0); [discriminate|]. rewrite Eo in E. cbn [bind] in E. injection E as <-.
    cbn [irange]. unfold unsigned_abs. pose proof (ibig_abs_val d Hd). split; [apply Hd|lia].
  - destruct (ibig_from_unsigned_spec 8 1) as (one & E1 & H1 & V1); [left; reflexivity|lia|]. rewrite E1 in E. cbn [bind] in E.
    destruct (ibig_add_vv_yields d one Hd H1) as [Z1 Z2]. destruct (Z_lt_le_dec (Z.abs (ival d + ival one)) MAXV) as [D|D].
    + destruct (Z1 D) as (r & Er & Hr & Vr). rewrite Er in E. cbn [bind] in E. rewrite not_positive_spec in E by auto. cbn [bind] in E.
      destruct (Z.leb_spec (ival r) 0); [discriminate|]. rewrite Eo in E. cbn [bind] in E. injection E as <-.
      cbn [irange]. unfold unsigned_abs. pose proof (ibig_abs_val r Hr). split; [apply Hr|lia].
    + rewrite (Z2 D) in E. discriminate.
Qed.

Theorem ibig_draws f hi low high s N : ibig_ok low -> ibig_ok high ->
  In (f, hi) [(uniform_ibig_new, ival high); (uniform_ibig_new_inclusive, ival high + 1)] -> f low high = Ok s ->
  1 <= N -> hi - ival low < 2 ^ (wbits * N) ->
  (forall k, draws (uniform_ibig_sample k s) <= 2 * inject_Z N)%Q /\
  (forall k cs r, (0 < k)%nat -> runs (uniform_ibig_sample k s) cs r -> Z.of_nat (length cs) <= Z.of_nat k * N).
Proof.
  intros Hl Hh I E P L. destruct (ibig_range f hi low high s Hl Hh I E) as [Hr Vr]. rewrite <- Vr in L.
  pose proof (range_len_le _ N Hr P L) as R. split.
  - intros k. unfold uniform_ibig_sample. rewrite draws_then.
    + eapply Qle_trans; [apply uniform_draws, Hr|]. rewrite Zle_Qle in R. lra.
    + intros [u|]; [|reflexivity]. destruct (ibig_add_vr _ _); reflexivity.
  - intros k cs r K G. destruct k as [|k]; [lia|]. apply (atmost_runs _ _ _ G). apply (atmost_mono _ (Z.of_nat (S k) * range_len (irange s) + 0)); [nia|].
    apply atmost_bind; [lia| |apply uniform_atmost, Hr]. intros [u|]; [|cbn; lia]. apply atmost_lift_bind; [lia|]. intros; cbn; lia.
Qed.
End RandCost.
