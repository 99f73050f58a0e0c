(** The same program on two platforms. *)
From Coq Require Import ZArith List Lia.
From Verif Require Import Model.Base Model.Words Model.Memory Model.FastDivide Model.Mul Model.Div Model.Buffer
  Model.UBig Model.IBig Model.Convert Model.AddOps Model.MulOps Model.ShiftOps Model.Bits Model.DivOps Model.PrimOps
  Model.Gcd Model.Pow Model.Program Spec.Val Spec.Num Spec.Prim Spec.Digits Spec.Ideal Spec.Portable
  Proofs.Basics Proofs.ProgramProofs.
Import ListNotations.
Open Scope Z_scope.

(** Equal outcomes, unless a number is too large for one of the platforms. *)
Definition alike {T} (a b : res T) : Prop := a = b \/ a = Panic NumberTooLarge \/ b = Panic NumberTooLarge.

Lemma alike_refl {T} (a : res T) : alike a a.
Proof. left. auto. Qed.
Lemma alike_bind {T U} (a b : res T) (f g : T -> res U) : alike a b -> (forall x, alike (f x) (g x)) -> alike (bind a f) (bind b g).
Proof.
  intros [-> |[-> | ->]] F; [|right; left; reflexivity|right; right; reflexivity]. destruct b; cbn; [apply F|apply alike_refl].
Qed.
Lemma alike_over {T} d (a b : res T) : alike a b -> alike (over d a) (over d b).
Proof. intros H. unfold over. destruct (d =? 0); [apply alike_refl|exact H]. Qed.
Lemma alike_form {X Y S} (l1 : list X) (l2 : list Y) k (s : S) (a b : res (S * obs)) : length l1 = length l2 -> alike a b ->
  alike (with_form l1 k s (fun _ => a)) (with_form l2 k s (fun _ => b)).
Proof.
  intros L H. unfold with_form. destruct (nth_error l1 k) eqn:E1, (nth_error l2 k) eqn:E2; [exact H| | |apply alike_refl].
  - apply nth_error_None in E2. assert (nth_error l1 k <> None) as N by congruence. apply nth_error_Some in N. lia.
  - apply nth_error_None in E1. assert (nth_error l2 k <> None) as N by congruence. apply nth_error_Some in N. lia.
Qed.

Section Portable.
Context (A1 A2 : Arch) {O1 : ArchOk A1} {O2 : ArchOk A2}.

Lemma alike_fits z : alike (fits (A := A1) z) (fits (A := A2) z).
Proof. unfold fits, alike. do 2 destruct (_ <? _); auto. Qed.
Lemma alike_ifits z : alike (ifits (A := A1) z) (ifits (A := A2) z).
Proof. unfold ifits, alike. do 2 destruct (_ <? _); auto. Qed.
Lemma alike_fits_nat z : alike (fits_nat (A := A1) z) (fits_nat (A := A2) z).
Proof. unfold fits_nat. destruct (z <? 0); [apply alike_refl|apply alike_fits]. Qed.
Lemma alike_fits_unsigned z : alike (fits_unsigned (A := A1) z) (fits_unsigned (A := A2) z).
Proof. unfold fits_unsigned. destruct (z <? 0); [unfold alike; do 2 destruct (_ <? _); auto|apply alike_fits]. Qed.
Lemma alike_bytes be bs : alike (bytes_ideal (A := A1) be bs) (bytes_ideal (A := A2) be bs).
Proof. unfold bytes_ideal. do 2 destruct (_ <=? _); try apply alike_fits; unfold alike; auto. Qed.

Lemma len1 (op : ubin) : length (ubin_fns (A := A1) op) = length (ubin_fns (A := A2) op).
Proof. destruct op; cbn [length ubin_fns]; reflexivity. Qed.
Lemma len2 (op : ibin) : length (ibin_fns (A := A1) op) = length (ibin_fns (A := A2) op).
Proof. destruct op; cbn [length ibin_fns]; reflexivity. Qed.
Lemma len3 (op : uun) : length (uun_fns (A := A1) op) = length (uun_fns (A := A2) op).
Proof. destruct op; cbn [length uun_fns]; reflexivity. Qed.
Lemma len4 (op : iun) : length (iun_fns (A := A1) op) = length (iun_fns (A := A2) op).
Proof. destruct op; cbn [length iun_fns]; reflexivity. Qed.
Lemma len5 (sg : bool) (op : prim_op) : length (uprim_fns (A := A1) sg op) = length (uprim_fns (A := A2) sg op).
Proof. destruct sg, op; cbn [length uprim_fns]; reflexivity. Qed.
Lemma len6 (sg : bool) (op : prim_op) : length (uprim_obs_fns (A := A1) sg op) = length (uprim_obs_fns (A := A2) sg op).
Proof. destruct sg, op; cbn [length uprim_obs_fns]; reflexivity. Qed.
Lemma len7 (e sg : bool) : length (uprim_div_rem_fns (A := A1) e sg) = length (uprim_div_rem_fns (A := A2) e sg).
Proof. destruct e, sg; cbn [length uprim_div_rem_fns]; reflexivity. Qed.
Lemma len8 (e : bool) : length (idiv_rem_fns (A := A1) e) = length (idiv_rem_fns (A := A2) e).
Proof. destruct e; cbn [length idiv_rem_fns]; reflexivity. Qed.
Lemma len9 (sg : bool) (op : prim_op) : length (iprim_fns (A := A1) sg op) = length (iprim_fns (A := A2) sg op).
Proof. destruct sg, op; cbn [length iprim_fns]; reflexivity. Qed.
Lemma len10 (sg : bool) (op : prim_op) : length (iprim_obs_fns (A := A1) sg op) = length (iprim_obs_fns (A := A2) sg op).
Proof. destruct sg, op; cbn [length iprim_obs_fns]; reflexivity. Qed.
Lemma len11 (e sg : bool) : length (iprim_div_rem_fns (A := A1) e sg) = length (iprim_div_rem_fns (A := A2) e sg).
Proof. destruct e, sg; cbn [length iprim_div_rem_fns]; reflexivity. Qed.

Lemma alike_step i s r1 r2 : istep (A := A1) i s = Some r1 -> istep (A := A2) i s = Some r2 -> alike r1 r2.
Proof.
  intros E1 E2.
  assert (forall d a b, alike a b -> alike (iputu s d a) (iputu s d b)) as PU by (intros; apply alike_bind; [auto|intros; apply alike_refl]).
  assert (forall d a b, alike a b -> alike (iputi s d a) (iputi s d b)) as PI by (intros; apply alike_bind; [auto|intros; apply alike_refl]).
  pose proof alike_fits as F1. pose proof alike_ifits as F2. pose proof alike_fits_nat as F3. pose proof alike_fits_unsigned as F4.
  destruct i; cbn [istep] in E1, E2;
    try (destruct (_ && _ && _) in E1; [discriminate E1|]; destruct (_ && _ && _) in E2; [discriminate E2|]);
    injection E1 as <-; injection E2 as <-; try apply alike_refl;
    try (apply alike_form; [first [apply len1|apply len2|apply len3|apply len4|apply len5|apply len6|apply len7|apply len8|apply len9|apply len10|apply len11|cbn [length udiv_rem_fns iprim_div_rem2_fns]; reflexivity]|]);
    try apply PU; try apply PI; try apply alike_refl; auto.
  - destruct op; cbn; auto using alike_refl.
  - destruct op; cbn; auto using alike_refl.
  - apply alike_bytes.
  - destruct op, sg; cbn; auto using alike_refl.
  - destruct op; cbn; auto using alike_refl.
  - destruct op; cbn; auto using alike_refl.
  - destruct op; cbn; auto using alike_refl.
Qed.

Lemma irun_alike n c : small_bits c -> forall tr s, exists r1 r2,
  irun (A := A1) n c tr s = Some r1 /\ irun (A := A2) n c tr s = Some r2 /\ alike r1 r2.
Proof.
  intros C. induction n as [|n IH]; intros tr s; [do 2 eexists; split; [|split]; [reflexivity..|apply alike_refl]|].
  cbn [irun]. destruct (c tr) as [i|] eqn:E; [|do 2 eexists; split; [|split]; [reflexivity..|apply alike_refl]].
  assert (forall (X : Arch), ArchOk X -> istep (A := X) i s <> None) as NN.
  { intros X OX. pose proof (wbits_ge (A := X)) as W. destruct i; try discriminate. cbn [istep].
    specialize (C _ _ _ E). rewrite (proj2 (Z.leb_gt _ _)) by lia. discriminate. }
  pose proof (NN A1 O1) as N1. pose proof (NN A2 O2) as N2.
  pose proof (alike_step i s) as AL.
  destruct (istep (A := A1) i s) as [r1|]; [|congruence]. destruct (istep (A := A2) i s) as [r2|]; [|congruence].
  specialize (AL r1 r2 eq_refl eq_refl). destruct AL as [-> |[-> | ->]].
  - destruct r2 as [[s' o]|p]; [apply IH|]. do 2 eexists. split; [|split]; [reflexivity..|apply alike_refl].
  - destruct r2 as [[s' o]|p].
    + destruct (IH (o :: tr) s') as (x1 & x2 & _ & E2 & _). do 2 eexists. split; [reflexivity|]. split; [exact E2|]. right. left. auto.
    + do 2 eexists. split; [|split]; [reflexivity..|]. right. left. auto.
  - destruct r1 as [[s' o]|p].
    + destruct (IH (o :: tr) s') as (x1 & x2 & E1 & _). do 2 eexists. split; [exact E1|]. split; [reflexivity|]. right. right. auto.
    + do 2 eexists. split; [|split]; [reflexivity..|]. right. right. auto.
Qed.

Lemma run_alike n c tr st1 st2 :
  client_ok (A := A1) c -> client_ok (A := A2) c -> small_bits c ->
  well_formed (A := A1) st1 -> well_formed (A := A2) st2 ->
  (forall k, uval (A := A1) (us st1 k) = uval (A := A2) (us st2 k)) ->
  (forall k, ival (A := A1) (is st1 k) = ival (A := A2) (is st2 k)) ->
  same_outcome A1 A2 (run (A := A1) n c tr st1) (run (A := A2) n c tr st2).
Proof.
  intros C1 C2 SB W1 W2 EU EI.
  set (s := mkIstate (fun k => uval (A := A1) (us st1 k)) (fun k => ival (A := A1) (is st1 k))).
  assert (holds (A := A1) st1 s) as H1 by (split; intro; split; [apply W1|reflexivity|apply W1|reflexivity]).
  assert (holds (A := A2) st2 s) as H2 by (split; intro; split; [apply W2|symmetry; apply EU|apply W2|symmetry; apply EI]).
  destruct (irun_alike n c SB tr s) as (r1 & r2 & E1 & E2 & AL).
  pose proof (run_sim (A := A1) n c C1 tr st1 s H1) as S1. pose proof (run_sim (A := A2) n c C2 tr st2 s H2) as S2.
  rewrite E1 in S1. rewrite E2 in S2.
  destruct r1 as [[t1 s1]|p1], r2 as [[t2 s2]|p2].
  - destruct S1 as (x1 & -> & G1), S2 as (x2 & -> & G2). destruct AL as [AL|[AL|AL]]; try discriminate. injection AL as -> ->.
    cbn. split; [auto|]. split; intros k; [transitivity (uz s2 k)|transitivity (iz s2 k)]; (apply G1 || (symmetry; apply G2)).
  - destruct S1 as (x1 & -> & G1). rewrite S2. destruct AL as [AL|[AL|AL]]; try discriminate. injection AL as ->. reflexivity.
  - destruct S2 as (x1 & -> & G1). rewrite S1. destruct AL as [AL|[AL|AL]]; try discriminate. injection AL as ->. reflexivity.
  - rewrite S1, S2. cbn. destruct AL as [AL|[AL|AL]]; injection AL; auto.
Qed.
End Portable.
