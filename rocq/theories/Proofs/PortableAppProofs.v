(** The same client of the whole library on two platforms. *)
From Coq Require Import ZArith List Lia.
From Verif Require Import Model.Base Model.Buffer Model.UBig Model.IBig Model.Gcd Model.Parse Model.Fmt Model.Modular Model.ModularFmt Model.Program Model.Client
  Spec.Val Spec.Num Spec.Prim Spec.Digits Spec.Text Spec.FmtText Spec.ModularText Spec.Float Spec.Ideal Spec.ParseResult Spec.Modular Spec.Abstract Spec.Portable Spec.PortableApp
  Proofs.Basics Proofs.BufferProofs Proofs.ModularProofs Proofs.ParseProofs Proofs.ParseApi Proofs.PortableProofs Proofs.GcdApi Proofs.GcdPortable Proofs.ClientProofs.
Import ListNotations.
Open Scope Z_scope.

(** What the states of the abstract machine that depict something have in common. *)
Definition coherent (s : aworld) : Prop :=
  (forall k, 0 <= uz (num_of s) k) /\
  (forall j k id n m a b, elem_at s j = Some (id, n, a) -> elem_at s k = Some (id, m, b) -> n = m).

Lemma depicts_coherent {A : Arch} {AOK : ArchOk A} w s : depicts w s -> coherent s.
Proof.
  intros (known & [HU HI] & F & R & M). split; [intros k; destruct (HU k) as [Ua <-]; apply uval_nonneg, Ua|].
  assert (forall k id n a, elem_at s k = Some (id, n, a) -> is_ring (known id) n) as MR.
  { intros k id n a E. specialize (M k). rewrite E in M. destruct (mods w k); [|contradiction]. apply M. }
  intros j k id n m a b E1 E2. eapply is_ring_unique; eauto.
Qed.

Section PortableApp.
Context (A1 A2 : Arch) {O1 : ArchOk A1} {O2 : ArchOk A2}.

Lemma alike_reading r t s g1 g2 o1 o2 : (forall v, alike (g1 v) (g2 v)) ->
  reading (A := A1) r t s g1 o1 -> reading (A := A2) r t s g2 o2 -> alike o1 o2.
Proof.
  intros G.
  assert (forall A g o, reading (A := A) r t s g o -> (exists v, numeral r t v /\ o = g v) \/ (t = [] /\ o = Ok (s, Error NoDigits)) \/
    (t <> [] /\ (forall v, ~ numeral r t v) /\ o = Ok (s, Error InvalidDigit)) \/ o = Panic NumberTooLarge) as K.
  { intros A g o [H|[H|(NE & N & [H|[H L]])]]; auto 10. }
  intros H1 H2. apply K in H1, H2.
  destruct H1 as [(v & Nv & ->)|[[-> ->]|[(NE & N & ->)| ->]]], H2 as [(w & Nw & ->)|[[E ->]|[(NE' & N' & ->)| ->]]];
    try (unfold alike; auto; fail); try (exfalso; congruence).
  - rewrite (numeral_unique r t v w Nv Nw). apply G.
  - subst t. destruct Nv as [H _]. congruence.
  - destruct (N' v Nv).
  - destruct Nw as [H _]. congruence.
  - destruct (N w Nw).
Qed.

(** Alike, or one of them lacks memory. *)
Definition akin {T} (a b : res T) : Prop := alike a b \/ a = Panic OutOfMemory \/ b = Panic OutOfMemory.
Lemma akin_alike {T} (a b : res T) : alike a b -> akin a b.
Proof. left. assumption. Qed.

Lemma akin_dividing s d id n x y m b dn1 st1 dn2 st2 o1 o2 : (b = true -> n = m) ->
  dividing (A := A1) s d id n x y m b dn1 st1 o1 -> dividing (A := A2) s d id n x y m b dn2 st2 o2 -> akin o1 o2.
Proof.
  intros En.
  intros [(G1 & B1 & D1 & c1 & R1 & E1 & ->)|[(G1 & B1 & D1 & ->)|[(G1 & B1 & ->)|[(G1 & ->)|(-> & _)]]]]
         [(G2 & B2 & D2 & c2 & R2 & E2 & ->)|[(G2 & B2 & D2 & ->)|[(G2 & B2 & ->)|[(G2 & ->)|(-> & _)]]]];
    try (unfold akin, alike; auto; fail); try (exfalso; congruence).
  specialize (En B1). subst m. rewrite (quotient_unique n c1 c2 x y); auto. apply akin_alike, alike_refl.
Qed.
Lemma akin_pow {T} (x : T) (P Q : Prop) o1 o2 : o1 = Ok x \/ (o1 = Panic OutOfMemory /\ P) -> o2 = Ok x \/ (o2 = Panic OutOfMemory /\ Q) -> akin o1 o2.
Proof. unfold akin, alike. intros [->|[-> _]] [->|[-> _]]; auto. Qed.

Lemma alike_store_u s d a b x : alike a b -> alike (store_u s d a x) (store_u s d b x).
Proof. intros H. apply alike_bind; [exact H|intros; apply alike_refl]. Qed.
Lemma alike_store_i s d a b x : alike a b -> alike (store_i s d a x) (store_i s d b x).
Proof. intros H. apply alike_bind; [exact H|intros; apply alike_refl]. Qed.
Lemma alike_de es a b : alike a b -> alike (de_outcome (A := A1) es a) (de_outcome (A := A2) es b).
Proof. intros H. unfold de_outcome. do 2 destruct (_ <=? _); unfold alike; auto. Qed.

Lemma alike_eq {T} (a b c d : res T) : alike a b -> c = a -> d = b -> alike c d.
Proof. congruence. Qed.
Lemma alike_same {T} (a b c : res T) : b = a -> c = a -> alike b c.
Proof. intros -> ->. apply alike_refl. Qed.

Definition multiplies (c : call) : bool :=
  match c with CM2 MMul _ _ _ _ | CM2 MDiv _ _ _ _ | CMPow _ _ _ | CMPowSigned _ _ _ => true | _ => false end.
Lemma akin_allowed c s o1 o2 : coherent s -> portable_call c -> multiplies c = true ->
  allowed (A := A1) c s o1 -> allowed (A := A2) c s o2 -> akin o1 o2.
Proof.
  intros [HU HM] P F. destruct c; try discriminate; cbn [allowed];
    unfold given; (destruct (elem_at s x) as [[[id n] v]|] eqn:Ex; [|intros -> ->; apply akin_alike, alike_refl]).
  - destruct (elem_at s y) as [[[id' n'] v']|] eqn:Ey; [|intros -> ->; apply akin_alike, alike_refl].
    destruct (k <? 6)%nat; [|intros -> ->; apply akin_alike, alike_refl].
    unfold mbin_outcome. destruct op; try discriminate.
    + intros -> ->. destruct (id =? id'); cbn [andb]; [|apply akin_alike, alike_refl].
      do 2 destruct (room_for_mul _); cbn [negb]; unfold akin, alike; auto.
    + apply akin_dividing. intros E. apply Z.eqb_eq in E as <-. eapply HM; eauto.
  - apply akin_pow.
  - destruct (0 <=? _); [apply akin_pow|apply akin_dividing; auto].
Qed.

(** Calls with more than one outcome of which all platforms choose the same. *)
Definition extended (c : call) : bool := match c with CUExtGcd _ _ _ _ _ | CIExtGcd _ _ _ _ _ => true | _ => false end.
Lemma alike_allowed c s o1 o2 : coherent s -> portable_call c -> multiplies c = false -> extended c = false ->
  allowed (A := A1) c s o1 -> allowed (A := A2) c s o2 -> alike o1 o2.
Proof.
  intros [HU HM] P NM NE.
  destruct c; cbn [allowed portable_call multiplies extended] in *; try contradiction; try discriminate; try apply alike_same;
    try (unfold given; destruct (ring_at s r) as [[id n]|]; try apply alike_same);
    try (unfold given; destruct (elem_at s x) as [[[id n] v]|] eqn:Ex; try apply alike_same).
  - pose proof (alike_step A1 A2 i (num_of s)) as AL.
    assert (forall (X : Arch), ArchOk X -> istep (A := X) i (num_of s) <> None) as NN.
    { intros X OX. pose proof (wbits_ge (A := X)) as W. destruct i; try discriminate. cbn [istep].
      rewrite (proj2 (Z.leb_gt _ _)) by lia. discriminate. }
    pose proof (NN A1 O1) as N1. pose proof (NN A2 O2) as N2.
    destruct (istep (A := A1) i (num_of s)) as [r1|]; [|congruence]. destruct (istep (A := A2) i (num_of s)) as [r2|]; [|congruence].
    specialize (AL r1 r2 eq_refl eq_refl). apply alike_eq. apply alike_bind; [exact AL|intros [? ?]; apply alike_refl].
  - destruct (valid_radix radix); [|apply alike_same]. apply alike_reading. intros. apply alike_store_u, alike_fits.
  - destruct (valid_radix radix); [|apply alike_same]. destruct (after_sign s0) as [sg t]. apply alike_reading. intros. apply alike_store_i, alike_ifits.
  - intros (r & b & Q & H1) (r' & b' & Q' & H2). destruct (prefixed_fun _ _ _ _ _ Q Q') as [<- <-].
    eapply alike_reading; eauto. intros. cbv beta. apply alike_store_u, alike_fits.
  - destruct (after_sign s0) as [sg t]. intros (r & b & Q & H1) (r' & b' & Q' & H2). destruct (prefixed_fun _ _ _ _ _ Q Q') as [<- <-].
    eapply alike_reading; eauto. intros. cbv beta. apply alike_store_i, alike_ifits.
  - intros (x & T1 & ->) (y & T2 & ->). rewrite (trait_text_unique _ _ _ x y T1 T2). apply alike_refl.
  - intros (x & T1 & ->) (y & T2 & ->). rewrite (trait_text_unique _ _ _ x y T1 T2). apply alike_refl.
  - destruct (valid_radix_spec radix); [|apply alike_same]. intros (x & T1 & ->) (y & T2 & ->). rewrite (shows_unique f radix _ _ _ x y ltac:(lia) T1 T2). apply alike_refl.
  - destruct (valid_radix_spec radix); [|apply alike_same]. intros (x & T1 & ->) (y & T2 & ->). rewrite (shows_unique f radix _ _ _ x y ltac:(lia) T1 T2). apply alike_refl.
  - intros (x & T1 & ->) (y & T2 & ->). rewrite (float_unique _ _ _ x y (HU a) T1 T2). apply alike_refl.
  - intros (x & T1 & ->) (y & T2 & ->). rewrite (float_unique _ _ _ x y (Z.abs_nonneg _) T1 T2). apply alike_refl.
  - intros (x & T1 & ->) (y & T2 & ->). rewrite (serial_unique _ x y T1 T2). apply alike_refl.
  - intros (x & T1 & ->) (y & T2 & ->). rewrite (serial_unique _ x y T1 T2). apply alike_refl.
  - apply alike_eq, alike_store_u, alike_de, alike_fits.
  - apply alike_eq, alike_store_i, alike_de. destruct s0; apply alike_ifits.
  - destruct (ring_at s s0) as [[id' n']|]; apply alike_same.
  - intros (x & (x1 & T1 & [= ->]) & ->) (y & (y1 & T2 & [= ->]) & ->). rewrite (trait_text_unique _ _ _ x1 y1 T1 T2). apply alike_refl.
  - apply alike_eq. do 2 destruct (enters _ _); unfold alike; auto.
  - apply alike_eq. do 2 destruct (enters _ _); unfold alike; auto.
  - destruct (elem_at s y) as [[[id' n'] v']|] eqn:Ey; [|apply alike_same]. destruct (k <? 6)%nat; [|apply alike_same].
    unfold mbin_outcome. destruct op; try discriminate; apply alike_same.
  - intros [(G1 & c1 & R1 & E1 & ->)|[(G1 & ->)|(-> & H)]] [(G2 & c2 & R2 & E2 & ->)|[(G2 & ->)|(-> & H')]];
      try (unfold alike; auto; fail); try (exfalso; congruence).
    rewrite (quotient_unique n c1 c2 1 v); auto; [apply alike_refl|rewrite Z.mul_comm; auto..].
  - destruct (elem_at s y) as [[[id' n'] v']|]; apply alike_same.
  - destruct (elem_at s m) as [[[id' n'] v']|]; apply alike_same.
  - intros (a & (x1 & y1 & T1 & T1' & [= ->]) & ->) (b & (x2 & y2 & T2 & T2' & [= ->]) & ->).
    rewrite (trait_text_unique _ _ _ x1 x2 T1 T2), (trait_text_unique _ _ _ y1 y2 T1' T2'). apply alike_refl.
Qed.

(** The outcomes of one call. *)
Definition same_step (r1 r2 : res (world * seen)) : Prop :=
  match r1, r2 with
  | Ok (w1, x1), Ok (w2, x2) => x1 = x2 /\ exists s, depicts (A := A1) w1 s /\ depicts (A := A2) w2 s
  | Panic p, Panic q => p = q \/ lacks_space p \/ lacks_space q
  | Panic p, Ok _ => lacks_space p
  | Ok _, Panic q => lacks_space q
  end.

Lemma extended_alike be1 be2 c w1 w2 s : extended c = true -> depicts (A := A1) w1 s -> depicts (A := A2) w2 s ->
  same_step (call_step (A := A1) be1 c w1) (call_step (A := A2) be2 c w2).
Proof.
  intros X (k1 & D1) (k2 & D2). pose proof D1 as ([U1 I1] & _). pose proof D2 as ([U2 I2] & _). destruct c; try discriminate; cbn [call_step].
  - destruct (U1 a) as [Ha Ea], (U2 a) as [Ha' Ea'], (U1 b) as [Hb Eb], (U2 b) as [Hb' Eb'].
    pose proof (ubig_extended_gcd_all (A := A1) _ _ Ha Hb) as G1. pose proof (ubig_extended_gcd_all (A := A2) _ _ Ha' Hb') as G2.
    pose proof (fun g g' x x' y y' => extended_gcd_same A1 A2 _ _ _ _ g g' x x' y y' Ha Hb Ha' Hb' (eq_trans Ea (eq_sym Ea')) (eq_trans Eb (eq_sym Eb'))) as Q.
    rewrite Ea, Eb in G1. rewrite Ea', Eb' in G2.
    destruct (ubig_extended_gcd (A := A1) _ _) as [[[g1 x1] y1]|p1], (ubig_extended_gcd (A := A2) _ _) as [[[g2 x2] y2]|p2]; cbn [bind same_step]; unfold lacks_space.
    + destruct (Q _ _ _ _ _ _ eq_refl eq_refl) as [Ex Ey]. destruct G1 as (Hg & Hx & Hy & _ & Eg & _), G2 as (Hg' & Hx' & Hy' & _ & Eg' & _).
      split; [reflexivity|]. exists (aset_i (aset_i (aset_u s g (Z.gcd (uz (num_of s) a) (uz (num_of s) b))) x (ival (A := A1) x1)) y (ival (A := A1) y1)).
      split; [exists k1|exists k2]; repeat (apply depicts_i; auto); apply depicts_u; auto.
    + destruct G1 as (_ & _ & _ & NZ & _). destruct G2 as [(_ & Z1 & Z2)|[-> _]]; [exfalso; clear - NZ Z1 Z2; lia|auto].
    + destruct G2 as (_ & _ & _ & NZ & _). destruct G1 as [(_ & Z1 & Z2)|[-> _]]; [exfalso; clear - NZ Z1 Z2; lia|auto].
    + destruct G1 as [(-> & _)|[-> _]], G2 as [(-> & _)|[-> _]]; auto.
  - destruct (I1 a) as [Ha Ea], (I2 a) as [Ha' Ea'], (I1 b) as [Hb Eb], (I2 b) as [Hb' Eb'].
    pose proof (ibig_extended_gcd_all (A := A1) _ _ Ha Hb) as G1. pose proof (ibig_extended_gcd_all (A := A2) _ _ Ha' Hb') as G2.
    pose proof (fun g g' x x' y y' => iextended_gcd_same A1 A2 _ _ _ _ g g' x x' y y' Ha Hb Ha' Hb' (eq_trans Ea (eq_sym Ea')) (eq_trans Eb (eq_sym Eb'))) as Q.
    rewrite Ea, Eb in G1. rewrite Ea', Eb' in G2.
    destruct (ibig_extended_gcd (A := A1) _ _) as [[[g1 x1] y1]|p1], (ibig_extended_gcd (A := A2) _ _) as [[[g2 x2] y2]|p2]; cbn [bind same_step]; unfold lacks_space.
    + destruct (Q _ _ _ _ _ _ eq_refl eq_refl) as [Ex Ey]. destruct G1 as (Hg & Hx & Hy & _ & Eg & _), G2 as (Hg' & Hx' & Hy' & _ & Eg' & _).
      split; [reflexivity|]. exists (aset_i (aset_i (aset_i s g (Z.gcd (iz (num_of s) a) (iz (num_of s) b))) x (ival (A := A1) x1)) y (ival (A := A1) y1)).
      split; [exists k1|exists k2]; repeat (apply depicts_i; auto); apply depicts_i; auto.
    + destruct G1 as (_ & _ & _ & NZ & _). destruct G2 as [(_ & Z1 & Z2)|[-> _]]; [exfalso; clear - NZ Z1 Z2; lia|auto].
    + destruct G2 as (_ & _ & _ & NZ & _). destruct G1 as [(_ & Z1 & Z2)|[-> _]]; [exfalso; clear - NZ Z1 Z2; lia|auto].
    + destruct G1 as [(-> & _)|[-> _]], G2 as [(-> & _)|[-> _]]; auto.
Qed.

Lemma space_akin {T} (a b : res T) : akin a b ->
  match a, b with
  | Ok x, Ok y => x = y
  | Panic p, Panic q => p = q \/ lacks_space p \/ lacks_space q
  | Panic p, Ok _ => lacks_space p
  | Ok _, Panic q => lacks_space q
  end.
Proof.
  unfold lacks_space. intros [[E|[E|E]]|[E|E]]; subst; try destruct a; try destruct b; auto.
Qed.

Lemma call_alike be1 be2 c w1 w2 s : call_ok (A := A1) c -> call_ok (A := A2) c -> portable_call c ->
  depicts (A := A1) w1 s -> depicts (A := A2) w2 s -> same_step (call_step (A := A1) be1 c w1) (call_step (A := A2) be2 c w2).
Proof.
  intros C1 C2 P D1 D2. destruct (extended c) eqn:X; [eapply extended_alike; eauto|].
  pose proof (call_sim (A := A1) be1 c w1 s D1 C1) as S1. pose proof (call_sim (A := A2) be2 c w2 s D2 C2) as S2.
  pose proof (depicts_coherent w1 s D1) as Co.
  assert (forall o1 o2, allowed (A := A1) c s o1 -> allowed (A := A2) c s o2 -> akin o1 o2) as AL.
  { intros o1 o2 H1 H2. destruct (multiplies c) eqn:M; [eapply akin_allowed; eauto|apply akin_alike; eapply alike_allowed; eauto]. }
  destruct (call_step (A := A1) be1 c w1) as [[v1 x1]|p1], (call_step (A := A2) be2 c w2) as [[v2 x2]|p2]; cbn [same_step].
  - destruct S1 as (s1 & Al1 & G1), S2 as (s2 & Al2 & G2). pose proof (space_akin _ _ (AL _ _ Al1 Al2)) as Q. injection Q as <- <-. eauto.
  - destruct S1 as (s1 & Al1 & G1). exact (space_akin _ _ (AL _ _ Al1 S2)).
  - destruct S2 as (s2 & Al2 & G2). exact (space_akin _ _ (AL _ _ S1 Al2)).
  - exact (space_akin _ _ (AL _ _ S1 S2)).
Qed.

Lemma call_run_alike be1 be2 n c : app_ok (A := A1) c -> app_ok (A := A2) c -> portable_app c ->
  forall tr w1 w2 s, depicts (A := A1) w1 s -> depicts (A := A2) w2 s ->
  same_ending A1 A2 (call_run (A := A1) be1 n c tr w1) (call_run (A := A2) be2 n c tr w2).
Proof.
  intros C1 C2 P. induction n as [|n IH]; intros tr w1 w2 s D1 D2; cbn [call_run].
  { split; [auto|]. exists s. auto. }
  destruct (c tr) as [c1|] eqn:E; [|split; [auto|]; exists s; auto].
  pose proof (call_alike be1 be2 c1 w1 w2 s (C1 _ _ E) (C2 _ _ E) (P _ _ E) D1 D2) as Q.
  destruct (call_step (A := A1) be1 c1 w1) as [[v1 x1]|p1], (call_step (A := A2) be2 c1 w2) as [[v2 x2]|p2]; cbn [bind same_step] in *.
  - destruct Q as (<- & s' & G1 & G2). eapply IH; eauto.
  - destruct (call_run _ _ _ _ _) as [[? ?]|?]; cbn; auto.
  - destruct (call_run _ _ _ _ _) as [[? ?]|?]; cbn; auto.
  - exact Q.
Qed.

Lemma same_numbers w1 w2 s : depicts (A := A1) w1 s -> depicts (A := A2) w2 s ->
  (forall k, uval (A := A1) (us (nums w1) k) = uval (A := A2) (us (nums w2) k)) /\
  (forall k, ival (A := A1) (is (nums w1) k) = ival (A := A2) (is (nums w2) k)).
Proof.
  intros (k1 & [U1 I1] & _) (k2 & [U2 I2] & _). split; intros k.
  - transitivity (uz (num_of s) k); [apply U1|symmetry; apply U2].
  - transitivity (iz (num_of s) k); [apply I1|symmetry; apply I2].
Qed.

End PortableApp.
