(** Extended gcds have the same coefficients on all platforms. *)
From Coq Require Import ZArith List Lia.
From Verif Require Import Model.Base Model.Buffer Model.UBig Model.IBig Model.Convert Model.AddOps Model.ShiftOps Model.Bits Model.DivOps Model.PrimOps Model.Gcd
  Spec.Val Spec.Num Spec.Prim Proofs.Basics Proofs.BufferProofs Proofs.AddOpsProofs Proofs.ConvertProofs Proofs.ShiftOpsProofs Proofs.BitCountProofs
  Proofs.DivOpsProofs Proofs.ApiProofs Proofs.GcdProofs Proofs.GcdApi.
Open Scope Z_scope.

Lemma odd_part_unique v j k : odd_part v j -> odd_part v k -> j = k.
Proof.
  assert (forall j k, odd_part v j -> odd_part v k -> j < k -> False) as K.
  { clear. intros j k H1 H2 L. apply odd_part_divide in H1 as (Hj & _ & N). apply odd_part_divide in H2 as (_ & D & _). apply N.
    apply Z.divide_trans with (2 ^ k); [|exact D]. exists (2 ^ (k - (j + 1))). rewrite <- Z.pow_add_r by lia. f_equal. lia. }
  intros H1 H2. destruct (Z.lt_trichotomy j k) as [L|[E|L]]; [destruct (K j k)|exact E|destruct (K k j)]; auto.
Qed.

(** ** If both succeed *)
Definition both {T U} (R : T -> U -> Prop) (r1 : res T) (r2 : res U) : Prop := forall x y, r1 = Ok x -> r2 = Ok y -> R x y.

Lemma both_bind {T1 T2 U1 U2} (R : T1 -> T2 -> Prop) (Q : U1 -> U2 -> Prop) r1 r2 k1 k2 :
  both R r1 r2 -> (forall x y, R x y -> both Q (k1 x) (k2 y)) -> both Q (bind r1 k1) (bind r2 k2).
Proof.
  intros H K x y E1 E2. destruct r1 as [v1|], r2 as [v2|]; try discriminate. cbn [bind] in *.
  exact (K v1 v2 (H v1 v2 eq_refl eq_refl) x y E1 E2).
Qed.
Lemma both_ok {T U} (R : T -> U -> Prop) x y : R x y -> both R (Ok x) (Ok y).
Proof. intros H a b [= <-] [= <-]. exact H. Qed.
Lemma both_panic_l {T U} (R : T -> U -> Prop) p r : both R (Panic p) r.
Proof. intros a b E. discriminate. Qed.
Lemma both_panic_r {T U} (R : T -> U -> Prop) p r : both R r (Panic p).
Proof. intros a b _ E. discriminate. Qed.

(** ** Operations of one platform *)
Section One.
Context {A : Arch} {AOK : ArchOk A}.

Lemma yields_ok r z u : yields r z -> r = Ok u -> ubig_ok u /\ uval u = z.
Proof.
  intros [Y1 Y2] E. destruct (Z.lt_ge_cases z MAXV) as [L|L].
  - destruct (Y1 L) as (x & E' & H). rewrite E in E'. injection E' as <-. exact H.
  - rewrite (Y2 L) in E. discriminate.
Qed.
Lemma returns_ok r z u : returns r z -> r = Ok u -> ubig_ok u /\ uval u = z.
Proof. intros (x & -> & H) [= <-]. exact H. Qed.
Lemma yields_nat_ok r z u : yields_nat r z -> r = Ok u -> ubig_ok u /\ uval u = z.
Proof.
  intros [Y1 Y2] E. destruct (Z.lt_ge_cases z 0) as [L|L]; [rewrite (Y2 L) in E; discriminate|]. exact (yields_ok r z u (Y1 L) E).
Qed.

Lemma add_ok a b c : ubig_ok a -> ubig_ok b -> ubig_add_assign_r a b = Ok c -> ubig_ok c /\ uval c = uval a + uval b.
Proof. intros Ha Hb. apply yields_ok. exact (ubig_add_vr_yields a b Ha Hb). Qed.
Lemma sub_ok a b c : ubig_ok a -> ubig_ok b -> ubig_sub_assign_r a b = Ok c -> ubig_ok c /\ uval c = uval a - uval b.
Proof. intros Ha Hb. apply yields_nat_ok. exact (ubig_sub_vr_yields a b Ha Hb). Qed.
Lemma sub_rv_ok a b c : ubig_ok a -> ubig_ok b -> ubig_sub_rv a b = Ok c -> ubig_ok c /\ uval c = uval a - uval b.
Proof. intros Ha Hb. apply yields_nat_ok. exact (ubig_sub_rv_yields a b Ha Hb). Qed.
Lemma shr_ok a k c : ubig_ok a -> 0 <= k -> ubig_shr_assign a k = Ok c -> ubig_ok c /\ uval c = uval a / 2 ^ k.
Proof. intros Ha Hk. apply yields_ok. exact (ubig_shr_v_yields a k Ha Hk). Qed.
Lemma shr_r_ok a k c : ubig_ok a -> 0 <= k -> ubig_shr_r a k = Ok c -> ubig_ok c /\ uval c = uval a / 2 ^ k.
Proof. intros Ha Hk. apply yields_ok. exact (ubig_shr_r_yields a k Ha Hk). Qed.
Lemma clone_ok a c : ubig_ok a -> ubig_clone a = Ok c -> ubig_ok c /\ uval c = uval a.
Proof. intros Ha E. destruct (ubig_clone_spec a Ha) as (x & E' & H). rewrite E in E'. injection E' as <-. exact H. Qed.
Lemma div_rem_ok a b q r : ubig_ok a -> ubig_ok b -> ubig_div_rem_rr a b = Ok (q, r) ->
  ubig_ok q /\ ubig_ok r /\ uval q = uval a / uval b /\ uval r = uval a mod uval b.
Proof.
  intros Ha Hb E. destruct (ubig_div_rem_rr_yields a b Ha Hb) as [Y1 Y2]. destruct (Z.eq_dec (uval b) 0) as [Z0|N].
  - rewrite (Y1 Z0) in E. discriminate.
  - destruct (Y2 N) as (q' & r' & E' & H). rewrite E in E'. injection E' as <- <-. exact H.
Qed.
Lemma zeros_ok a o : ubig_ok a -> ubig_trailing_zeros a = Ok o ->
  match o with None => uval a = 0 | Some k => uval a <> 0 /\ odd_part (uval a) k end.
Proof.
  intros Ha E. destruct (ubig_trailing_zeros_spec a Ha) as [T0 T1]. destruct (Z.eq_dec (uval a) 0) as [Z0|N].
  - rewrite (T0 Z0) in E. injection E as <-. exact Z0.
  - destruct (T1 N) as (k & E' & O). rewrite E in E'. injection E' as ->. auto.
Qed.
Lemma zero_eqb a : ubig_ok a -> ubig_eqb a (from_word 0) = (uval a =? 0).
Proof.
  intros Ha. pose proof (ubig_is_zero a Ha) as Z0. destruct (ubig_eqb a (from_word 0)).
  - symmetry. apply Z.eqb_eq, Z0. reflexivity.
  - symmetry. apply Z.eqb_neq. intros E. apply Z0 in E. discriminate.
Qed.

End One.

(** ** Two platforms *)
Section Two.
Context (A1 A2 : Arch) {O1 : ArchOk A1} {O2 : ArchOk A2}.

Definition same (x y : ubig) : Prop := ubig_ok (A := A1) x /\ ubig_ok (A := A2) y /\ uval (A := A1) x = uval (A := A2) y.
Definition isame (x y : ibig) : Prop := ibig_ok (A := A1) x /\ ibig_ok (A := A2) y /\ ival (A := A1) x = ival (A := A2) y.

Lemma same_small w : 0 <= w < 65536 -> same (from_word w) (from_word w).
Proof.
  intros H. pose proof (B_ge (A := A1)). pose proof (B_ge (A := A2)). unfold same, from_word. cbn. split; [|split]; [lia|lia|reflexivity].
Qed.

Lemma both_add a1 a2 b1 b2 : same a1 a2 -> same b1 b2 -> both same (ubig_add_assign_r (A := A1) a1 b1) (ubig_add_assign_r (A := A2) a2 b2).
Proof.
  intros (H1 & H2 & E) (K1 & K2 & F) c d E1 E2. destruct (add_ok (A := A1) _ _ _ H1 K1 E1) as [C1 V1]. destruct (add_ok (A := A2) _ _ _ H2 K2 E2) as [C2 V2].
  split; [exact C1|]. split; [exact C2|]. rewrite V1, V2, E, F. reflexivity.
Qed.
Lemma both_sub a1 a2 b1 b2 : same a1 a2 -> same b1 b2 -> both same (ubig_sub_assign_r (A := A1) a1 b1) (ubig_sub_assign_r (A := A2) a2 b2).
Proof.
  intros (H1 & H2 & E) (K1 & K2 & F) c d E1 E2. destruct (sub_ok (A := A1) _ _ _ H1 K1 E1) as [C1 V1]. destruct (sub_ok (A := A2) _ _ _ H2 K2 E2) as [C2 V2].
  split; [exact C1|]. split; [exact C2|]. rewrite V1, V2, E, F. reflexivity.
Qed.
Lemma both_sub_rv a1 a2 b1 b2 : same a1 a2 -> same b1 b2 -> both same (ubig_sub_rv (A := A1) a1 b1) (ubig_sub_rv (A := A2) a2 b2).
Proof.
  intros (H1 & H2 & E) (K1 & K2 & F) c d E1 E2. destruct (sub_rv_ok (A := A1) _ _ _ H1 K1 E1) as [C1 V1]. destruct (sub_rv_ok (A := A2) _ _ _ H2 K2 E2) as [C2 V2].
  split; [exact C1|]. split; [exact C2|]. rewrite V1, V2, E, F. reflexivity.
Qed.
Lemma both_shr a1 a2 k : same a1 a2 -> 0 <= k -> both same (ubig_shr_assign (A := A1) a1 k) (ubig_shr_assign (A := A2) a2 k).
Proof.
  intros (H1 & H2 & E) Hk c d E1 E2. destruct (shr_ok (A := A1) _ _ _ H1 Hk E1) as [C1 V1]. destruct (shr_ok (A := A2) _ _ _ H2 Hk E2) as [C2 V2].
  split; [exact C1|]. split; [exact C2|]. rewrite V1, V2, E. reflexivity.
Qed.
Lemma both_shr_r a1 a2 k : same a1 a2 -> 0 <= k -> both same (ubig_shr_r (A := A1) a1 k) (ubig_shr_r (A := A2) a2 k).
Proof.
  intros (H1 & H2 & E) Hk c d E1 E2. destruct (shr_r_ok (A := A1) _ _ _ H1 Hk E1) as [C1 V1]. destruct (shr_r_ok (A := A2) _ _ _ H2 Hk E2) as [C2 V2].
  split; [exact C1|]. split; [exact C2|]. rewrite V1, V2, E. reflexivity.
Qed.
Lemma both_clone a1 a2 : same a1 a2 -> both same (ubig_clone (A := A1) a1) (ubig_clone (A := A2) a2).
Proof.
  intros (H1 & H2 & E) c d E1 E2. destruct (clone_ok (A := A1) _ _ H1 E1) as [C1 V1]. destruct (clone_ok (A := A2) _ _ H2 E2) as [C2 V2].
  split; [exact C1|]. split; [exact C2|]. rewrite V1, V2. exact E.
Qed.
Lemma both_div_rem a1 a2 b1 b2 : same a1 a2 -> same b1 b2 ->
  both (fun x y => same (fst x) (fst y) /\ same (snd x) (snd y)) (ubig_div_rem_rr (A := A1) a1 b1) (ubig_div_rem_rr (A := A2) a2 b2).
Proof.
  intros (H1 & H2 & E) (K1 & K2 & F) [q1 r1] [q2 r2] E1 E2.
  destruct (div_rem_ok (A := A1) _ _ _ _ H1 K1 E1) as (Q1 & R1 & V1 & W1). destruct (div_rem_ok (A := A2) _ _ _ _ H2 K2 E2) as (Q2 & R2 & V2 & W2).
  cbn [fst snd]. unfold same. rewrite V1, V2, W1, W2, E, F. auto 10.
Qed.
Lemma both_odd a1 a2 : same a1 a2 -> both eq (is_odd (A := A1) a1) (is_odd (A := A2) a2).
Proof. intros (H1 & H2 & E). rewrite !is_odd_spec, E by assumption. apply both_ok. reflexivity. Qed.
Lemma both_lt a1 a2 b1 b2 : same a1 a2 -> same b1 b2 -> both eq (ubig_lt a1 b1) (ubig_lt a2 b2).
Proof. intros (H1 & H2 & E) (K1 & K2 & F). rewrite (ubig_lt_spec (A := A1)), (ubig_lt_spec (A := A2)), E, F by assumption. apply both_ok. reflexivity. Qed.
Lemma both_le a1 a2 b1 b2 : same a1 a2 -> same b1 b2 -> both eq (ubig_le a1 b1) (ubig_le a2 b2).
Proof. intros (H1 & H2 & E) (K1 & K2 & F). rewrite (ubig_le_spec (A := A1)), (ubig_le_spec (A := A2)), E, F by assumption. apply both_ok. reflexivity. Qed.
Lemma both_zeros a1 a2 : same a1 a2 ->
  both (fun x y => x = y /\ match x with Some k => 0 <= k | None => True end) (ubig_trailing_zeros (A := A1) a1) (ubig_trailing_zeros (A := A2) a2).
Proof.
  intros (H1 & H2 & E) x y E1 E2. pose proof (zeros_ok (A := A1) _ _ H1 E1) as Z1. pose proof (zeros_ok (A := A2) _ _ H2 E2) as Z2. rewrite <- E in Z2.
  destruct x as [k|], y as [j|]; try (exfalso; destruct Z1, Z2; congruence); [|auto].
  destruct Z1 as [_ Z1], Z2 as [_ Z2]. rewrite (odd_part_unique _ _ _ Z1 Z2). split; [reflexivity|apply Z2].
Qed.

(** Triples. *)
Definition tsame (s t : triple) : Prop :=
  let '(a, x, y) := s in let '(b, p, q) := t in same a b /\ same x p /\ same y q.

Lemma both_adjust (c1 c2 : bool) x1 x2 y1 y2 u1 u2 v1 v2 : c1 = c2 -> same x1 x2 -> same y1 y2 -> same u1 u2 -> same v1 v2 ->
  both (fun p q => same (fst p) (fst q) /\ same (snd p) (snd q))
    (if c1 then ax <- ubig_add_assign_r (A := A1) x1 v1 ;; ay <- ubig_add_assign_r (A := A1) y1 u1 ;; Ok (ax, ay) else Ok (x1, y1))
    (if c2 then ax <- ubig_add_assign_r (A := A2) x2 v2 ;; ay <- ubig_add_assign_r (A := A2) y2 u2 ;; Ok (ax, ay) else Ok (x2, y2)).
Proof.
  intros <- X Y U V. destruct c1; [|apply both_ok; auto].
  eapply both_bind; [apply both_add; eassumption|]. intros x x' X'. eapply both_bind; [apply both_add; eassumption|]. intros y y' Y'. apply both_ok. auto.
Qed.

Lemma both_halve u1 u2 v1 v2 : same u1 u2 -> same v1 v2 -> forall f1 f2 s t, tsame s t ->
  both tsame (halve_loop (A := A1) f1 u1 v1 s) (halve_loop (A := A2) f2 u2 v2 t).
Proof.
  intros U V. induction f1 as [|f1 IH]; intros f2 s t S; [apply both_panic_l|]. destruct f2 as [|f2]; [apply both_panic_r|].
  destruct s as [[a ax] ay], t as [[b bx] by_]. destruct S as (Sa & Sx & Sy). cbn [halve_loop].
  eapply both_bind; [apply both_odd, Sa|]. intros o ? <-. destruct o; [apply both_ok; cbn; auto|].
  eapply both_bind; [apply both_odd, Sx|]. intros ox ? <-.
  eapply both_bind with (R := eq); [destruct ox; [apply both_ok; reflexivity|apply both_odd, Sy]|]. intros oy ? <-.
  eapply both_bind; [apply both_adjust; [reflexivity|eassumption..]|]. intros [x1 y1] [x2 y2] [X Y]. cbn [fst snd] in X, Y.
  eapply both_bind; [apply both_shr; [exact Sa|lia]|]. intros a' b' Sa'.
  eapply both_bind; [apply both_shr; [exact X|lia]|]. intros x1' x2' X'.
  eapply both_bind; [apply both_shr; [exact Y|lia]|]. intros y1' y2' Y'. apply IH. cbn. auto.
Qed.

Lemma both_egcd u1 u2 v1 v2 : same u1 u2 -> same v1 v2 -> forall f1 f2 s1 s2 t1 t2, tsame s1 s2 -> tsame t1 t2 ->
  both tsame (egcd_loop (A := A1) f1 u1 v1 s1 t1) (egcd_loop (A := A2) f2 u2 v2 s2 t2).
Proof.
  intros U V. induction f1 as [|f1 IH]; intros f2 s1 s2 t1 t2 S T; [apply both_panic_l|]. destruct f2 as [|f2]; [apply both_panic_r|].
  cbn [egcd_loop]. destruct s1 as [[a1 ax1] ay1], s2 as [[a2 ax2] ay2]. pose proof S as ((Ha1 & Ha2 & Ea) & _).
  rewrite (zero_eqb (A := A1) a1 Ha1), (zero_eqb (A := A2) a2 Ha2), Ea. destruct (_ =? 0); [apply both_ok; exact T|].
  eapply both_bind; [apply both_halve; eassumption|]. clear S Ha1 Ha2 Ea a1 a2 ax1 ax2 ay1 ay2.
  intros [[a1 ax1] ay1] [[a2 ax2] ay2] S. destruct t1 as [[b1 bx1] by1], t2 as [[b2 bx2] by2]. pose proof S as (Sa & _). pose proof T as (Tb & _).
  eapply both_bind; [apply both_lt; eassumption|]. intros lt ? <-.
  assert (forall s1 s2 t1 t2, tsame s1 s2 -> tsame t1 t2 ->
    both tsame
     (let '((a, ax, ay), (b, bx, by_)) := (s1, t1) in
      a <- ubig_sub_assign_r (A := A1) a b ;; lt <- ubig_lt ax bx ;;
      '(ax, ay) <- (if (lt : bool) then ax <- ubig_add_assign_r (A := A1) ax v1 ;; ay <- ubig_add_assign_r (A := A1) ay u1 ;; Ok (ax, ay) else Ok (ax, ay)) ;;
      ax <- ubig_sub_assign_r (A := A1) ax bx ;; ay <- ubig_sub_assign_r (A := A1) ay by_ ;; egcd_loop (A := A1) f1 u1 v1 (a, ax, ay) (b, bx, by_))
     (let '((a, ax, ay), (b, bx, by_)) := (s2, t2) in
      a <- ubig_sub_assign_r (A := A2) a b ;; lt <- ubig_lt ax bx ;;
      '(ax, ay) <- (if (lt : bool) then ax <- ubig_add_assign_r (A := A2) ax v2 ;; ay <- ubig_add_assign_r (A := A2) ay u2 ;; Ok (ax, ay) else Ok (ax, ay)) ;;
      ax <- ubig_sub_assign_r (A := A2) ax bx ;; ay <- ubig_sub_assign_r (A := A2) ay by_ ;; egcd_loop (A := A2) f2 u2 v2 (a, ax, ay) (b, bx, by_))) as main.
  { clear - U V IH O1 O2. intros [[a1 x1] y1] [[a2 x2] y2] [[b1 p1] q1] [[b2 p2] q2] (Sa & Sx & Sy) (Tb & Tp & Tq). cbv iota beta.
    eapply both_bind; [apply both_sub; eassumption|]. intros a a' Sa'. eapply both_bind; [apply both_lt; eassumption|]. intros lt ? <-.
    eapply both_bind; [apply both_adjust; [reflexivity|eassumption..]|]. intros [x y] [x' y'] [X Y]. cbn [fst snd] in X, Y.
    eapply both_bind; [apply both_sub; eassumption|]. intros x3 x4 X'. eapply both_bind; [apply both_sub; eassumption|]. intros y3 y4 Y'.
    apply IH; cbn; auto. }
  destruct lt; [exact (main _ _ _ _ T S)|exact (main _ _ _ _ S T)].
Qed.

(** The coefficients. *)
Definition csame {G} (r1 r2 : G * ibig * ibig) : Prop :=
  isame (snd (fst r1)) (snd (fst r2)) /\ isame (snd r1) (snd r2).

Lemma isame_pos a b : same a b -> isame (ibig_from_ubig a) (ibig_from_ubig b).
Proof.
  intros (H1 & H2 & E). destruct (ibig_from_ubig_spec (A := A1) a H1) as [K1 V1]. destruct (ibig_from_ubig_spec (A := A2) b H2) as [K2 V2].
  split; [exact K1|]. split; [exact K2|]. rewrite V1, V2. exact E.
Qed.
Lemma isame_neg a b : isame a b -> isame (ibig_neg a) (ibig_neg b).
Proof.
  intros (H1 & H2 & E). destruct (ibig_neg_spec (A := A1) a H1) as [K1 V1]. destruct (ibig_neg_spec (A := A2) b H2) as [K2 V2].
  split; [exact K1|]. split; [exact K2|]. rewrite V1, V2, E. reflexivity.
Qed.
Lemma both_u8 w : 0 <= w < 256 -> both isame (ibig_from_unsigned (A := A1) 8 w) (ibig_from_unsigned (A := A2) 8 w).
Proof.
  intros H. destruct (ibig_from_unsigned_spec (A := A1) 8 w) as (x & -> & H1 & V1); [unfold prim_bits; lia|exact H|].
  destruct (ibig_from_unsigned_spec (A := A2) 8 w) as (y & -> & H2 & V2); [unfold prim_bits; lia|exact H|].
  apply both_ok. split; [exact H1|]. split; [exact H2|]. rewrite V1, V2. reflexivity.
Qed.

Lemma both_extended a1 a2 b1 b2 : same a1 a2 -> same b1 b2 -> both csame (ubig_extended_gcd (A := A1) a1 b1) (ubig_extended_gcd (A := A2) a2 b2).
Proof.
  intros Sa Sb. unfold ubig_extended_gcd.
  eapply both_bind; [apply both_zeros, Sa|]. intros za ? [<- Ha]. eapply both_bind; [apply both_zeros, Sb|]. intros zb ? [<- Hb].
  destruct za as [j|], zb as [k|]; [| | |apply both_panic_l].
  2,3: (eapply both_bind; [apply both_clone; eassumption|]; intros g g' _; eapply both_bind; [apply both_u8; lia|]; intros x x' X;
        eapply both_bind; [apply both_u8; lia|]; intros y y' Y; apply both_ok; split; [exact X|exact Y]).
  eapply both_bind; [apply both_shr_r; [exact Sa|lia]|]. intros u1 u2 U. eapply both_bind; [apply both_shr_r; [exact Sb|lia]|]. intros v1 v2 V.
  eapply both_bind; [apply both_le; eassumption|]. intros le ? <-.
  eapply both_bind with (R := fun p q => tsame (fst p) (fst q) /\ tsame (snd p) (snd q)).
  { destruct le.
    - eapply both_bind; [apply both_div_rem; eassumption|]. intros [q1 r1] [q2 r2] [Q R]. cbn [fst snd] in Q, R.
      eapply both_bind; [apply both_clone, U|]. intros a a' Sa'. eapply both_bind; [apply both_sub_rv; eassumption|]. intros x x' X.
      eapply both_bind; [apply both_sub_rv; [exact U|apply same_small; lia]|]. intros y y' Y. apply both_ok. cbn [fst snd tsame].
      pose proof (same_small 0 ltac:(lia)). pose proof (same_small 1 ltac:(lia)). auto 10.
    - eapply both_bind; [apply both_div_rem; eassumption|]. intros [q1 r1] [q2 r2] [Q R]. cbn [fst snd] in Q, R.
      eapply both_bind; [apply both_clone, V|]. intros a a' Sa'. eapply both_bind; [apply both_clone, V|]. intros x x' X.
      eapply both_bind; [apply both_sub_rv; [exact U|apply same_small; lia]|]. intros y y' Y. apply both_ok. cbn [fst snd tsame].
      pose proof (same_small 1 ltac:(lia)). auto 10. }
  intros [s1 t1] [s2 t2] [S T]. cbn [fst snd] in S, T.
  destruct t1 as [[b1' bx1] by1], t2 as [[b2' bx2] by2]. pose proof T as (Tb & _).
  eapply both_bind; [apply both_odd, Tb|]. intros o ? <-.
  assert (forall f1 f2 s1 s2 t1 t2, tsame s1 s2 -> tsame t1 t2 ->
    both csame ('(b, bx, by_) <- egcd_loop (A := A1) f1 u1 v1 s1 t1 ;; g <- ubig_shl_v (A := A1) b (Z.min j k) ;; Ok (g, ibig_from_ubig bx, ibig_neg (ibig_from_ubig by_)))
               ('(b, bx, by_) <- egcd_loop (A := A2) f2 u2 v2 s2 t2 ;; g <- ubig_shl_v (A := A2) b (Z.min j k) ;; Ok (g, ibig_from_ubig bx, ibig_neg (ibig_from_ubig by_)))) as main.
  { intros f1 f2 p1 p2 p3 p4 P Q. eapply both_bind; [apply both_egcd; eassumption|]. intros [[c1 x1] y1] [[c2 x2] y2] (_ & X & Y).
    eapply both_bind with (R := fun _ _ => True); [intros ? ? _ _; exact I|]. intros g g' _. apply both_ok. split; cbn [fst snd].
    - apply isame_pos, X.
    - apply isame_neg, isame_pos, Y. }
  destruct s1 as [[c1 cx1] cy1], s2 as [[c2 cx2] cy2]. destruct o; apply main; assumption.
Qed.

Lemma extended_gcd_same a1 a2 b1 b2 g1 g2 x1 x2 y1 y2 :
  ubig_ok (A := A1) a1 -> ubig_ok (A := A1) b1 -> ubig_ok (A := A2) a2 -> ubig_ok (A := A2) b2 ->
  uval (A := A1) a1 = uval (A := A2) a2 -> uval (A := A1) b1 = uval (A := A2) b2 ->
  ubig_extended_gcd (A := A1) a1 b1 = Ok (g1, x1, y1) -> ubig_extended_gcd (A := A2) a2 b2 = Ok (g2, x2, y2) ->
  ival (A := A1) x1 = ival (A := A2) x2 /\ ival (A := A1) y1 = ival (A := A2) y2.
Proof.
  intros H1 H2 H3 H4 E F E1 E2. destruct (both_extended a1 a2 b1 b2 (conj H1 (conj H3 E)) (conj H2 (conj H4 F)) _ _ E1 E2) as [(_ & _ & X) (_ & _ & Y)]. auto.
Qed.

Lemma iextended_gcd_same a1 a2 b1 b2 g1 g2 x1 x2 y1 y2 :
  ibig_ok (A := A1) a1 -> ibig_ok (A := A1) b1 -> ibig_ok (A := A2) a2 -> ibig_ok (A := A2) b2 ->
  ival (A := A1) a1 = ival (A := A2) a2 -> ival (A := A1) b1 = ival (A := A2) b2 ->
  ibig_extended_gcd (A := A1) a1 b1 = Ok (g1, x1, y1) -> ibig_extended_gcd (A := A2) a2 b2 = Ok (g2, x2, y2) ->
  ival (A := A1) x1 = ival (A := A2) x2 /\ ival (A := A1) y1 = ival (A := A2) y2.
Proof.
  intros H1 H2 H3 H4 E F. unfold ibig_extended_gcd.
  assert (forall a b, ibig_ok (A := A1) a -> ibig_ok (A := A2) b -> ival (A := A1) a = ival (A := A2) b ->
    isign a = isign b /\ same (imag a) (imag b)) as K.
  { clear - O1 O2. intros a b Ha Hb E. pose proof (ibig_abs_val (A := A1) a Ha) as V1. pose proof (ibig_abs_val (A := A2) b Hb) as V2.
    split; [|split; [apply Ha|split; [apply Hb|congruence]]].
    destruct (isign_val (A := A1) a Ha) as [P1 N1]. destruct (isign_val (A := A2) b Hb) as [P2 N2].
    destruct (isign a), (isign b); try reflexivity; exfalso; [specialize (P1 eq_refl); specialize (N2 eq_refl)|specialize (N1 eq_refl); specialize (P2 eq_refl)]; lia. }
  destruct (K a1 a2 H1 H3 E) as [Sa Ma]. destruct (K b1 b2 H2 H4 F) as [Sb Mb].
  pose proof (both_extended _ _ _ _ Ma Mb) as BE.
  destruct (ubig_extended_gcd (A := A1) _ _) as [[[g x] y]|]; [|discriminate]. destruct (ubig_extended_gcd (A := A2) _ _) as [[[g' x'] y']|]; [|discriminate].
  destruct (BE _ _ eq_refl eq_refl) as [(X1 & X2 & X) (Y1 & Y2 & Y)]. cbn [fst snd bind] in *. intros [= _ <- <-] [= _ <- <-].
  assert (forall s x x', ibig_ok (A := A1) x -> ibig_ok (A := A2) x' -> ival (A := A1) x = ival (A := A2) x' ->
    ival (A := A1) (sign_mul_ibig s x) = ival (A := A2) (sign_mul_ibig s x')) as M.
  { clear - O1 O2. intros s x x' H1 H2 E. destruct (sign_ops (A := A1) x s H1) as (_ & _ & _ & _ & _ & _ & _ & u & [= <-] & _ & ->).
    destruct (sign_ops (A := A2) x' s H2) as (_ & _ & _ & _ & _ & _ & _ & u & [= <-] & _ & ->). rewrite E. reflexivity. }
  rewrite Sa, Sb. auto.
Qed.

Lemma extended_gcd_alike a b c d g h x y z w :
  ubig_ok (A := A1) a -> ubig_ok (A := A1) b -> ubig_ok (A := A2) c -> ubig_ok (A := A2) d ->
  uval (A := A1) a = uval (A := A2) c -> uval (A := A1) b = uval (A := A2) d ->
  ubig_extended_gcd (A := A1) a b = Ok (g, x, y) -> ubig_extended_gcd (A := A2) c d = Ok (h, z, w) ->
  uval (A := A1) g = uval (A := A2) h /\ ival (A := A1) x = ival (A := A2) z /\ ival (A := A1) y = ival (A := A2) w.
Proof.
  intros H1 H2 H3 H4 E F E1 E2. pose proof (ubig_extended_gcd_all (A := A1) a b H1 H2) as G1. pose proof (ubig_extended_gcd_all (A := A2) c d H3 H4) as G2.
  rewrite E1 in G1. rewrite E2 in G2. destruct G1 as (_ & _ & _ & _ & -> & _), G2 as (_ & _ & _ & _ & -> & _). split; [congruence|].
  exact (extended_gcd_same a c b d g h x z y w H1 H2 H3 H4 E F E1 E2).
Qed.
Lemma iextended_gcd_alike a b c d g h x y z w :
  ibig_ok (A := A1) a -> ibig_ok (A := A1) b -> ibig_ok (A := A2) c -> ibig_ok (A := A2) d ->
  ival (A := A1) a = ival (A := A2) c -> ival (A := A1) b = ival (A := A2) d ->
  ibig_extended_gcd (A := A1) a b = Ok (g, x, y) -> ibig_extended_gcd (A := A2) c d = Ok (h, z, w) ->
  ival (A := A1) g = ival (A := A2) h /\ ival (A := A1) x = ival (A := A2) z /\ ival (A := A1) y = ival (A := A2) w.
Proof.
  intros H1 H2 H3 H4 E F E1 E2. pose proof (ibig_extended_gcd_all (A := A1) a b H1 H2) as G1. pose proof (ibig_extended_gcd_all (A := A2) c d H3 H4) as G2.
  rewrite E1 in G1. rewrite E2 in G2. destruct G1 as (_ & _ & _ & _ & -> & _), G2 as (_ & _ & _ & _ & -> & _). split; [congruence|].
  exact (iextended_gcd_same a c b d g h x z y w H1 H2 H3 H4 E F E1 E2).
Qed.

End Two.
