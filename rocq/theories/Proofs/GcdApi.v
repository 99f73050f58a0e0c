(** The statements about gcd in terms of divisibility. *)
From Verif Require Import Model.Base Model.Words Model.Buffer Model.UBig Model.IBig Model.Gcd Spec.Val Spec.Num
  Proofs.Basics Proofs.BufferProofs Proofs.GcdProofs Proofs.Limits.
From Coq Require Import Lia.

Section GcdApi.
Context {A : Arch} {AOK : ArchOk A}.

Lemma both_zero x y : if (x =? 0) && (y =? 0) then x = 0 /\ y = 0 else x <> 0 \/ y <> 0.
Proof. destruct (Z.eqb_spec x 0), (Z.eqb_spec y 0); cbn [andb]; auto. Qed.

Lemma ubig_gcd_divisor a b : ubig_ok a -> ubig_ok b ->
  if (uval a =? 0) && (uval b =? 0) then ubig_gcd a b = Panic GcdOfZeros
  else exists g, ubig_gcd a b = Ok g /\ ubig_ok g /\ (uval g | uval a) /\ (uval g | uval b) /\
       forall d, (d | uval a) -> (d | uval b) -> (d | uval g).
Proof.
  intros Ha Hb. destruct (ubig_gcd_spec a b Ha Hb) as [G0 G1]. pose proof (both_zero (uval a) (uval b)) as Z.
  destruct (_ && _); [auto|]. destruct (G1 Z) as (g & -> & Hg & Vg). exists g. rewrite Vg. split; [auto|]. split; [auto|].
  split; [apply Z.gcd_divide_l|]. split; [apply Z.gcd_divide_r|]. intros. apply Z.gcd_greatest; auto.
Qed.

Lemma ibig_gcd_divisor x y : ibig_ok x -> ibig_ok y ->
  if (ival x =? 0) && (ival y =? 0) then ibig_gcd x y = Panic GcdOfZeros
  else exists g, ibig_gcd x y = Ok g /\ ibig_ok g /\ 0 <= ival g /\ (ival g | ival x) /\ (ival g | ival y) /\
       forall d, (d | ival x) -> (d | ival y) -> (d | ival g).
Proof.
  intros Hx Hy. destruct (ibig_gcd_spec x y Hx Hy) as [G0 G1]. pose proof (both_zero (ival x) (ival y)) as Z.
  destruct (_ && _); [auto|]. destruct (G1 Z) as (g & -> & Hg & Vg). exists g. rewrite Vg. split; [auto|]. split; [auto|].
  split; [apply Z.gcd_nonneg|]. split; [apply Z.gcd_divide_l|]. split; [apply Z.gcd_divide_r|].
  intros. apply Z.gcd_greatest; auto.
Qed.

Lemma ubig_extended_gcd_bezout a b : ubig_ok a -> ubig_ok b -> 2 * uval a < MAXV -> 2 * uval b < MAXV ->
  if (uval a =? 0) && (uval b =? 0) then ubig_extended_gcd a b = Panic GcdOfZeros
  else exists g x y, ubig_extended_gcd a b = Ok (g, x, y) /\ ubig_ok g /\ ibig_ok x /\ ibig_ok y /\
       uval g = Z.gcd (uval a) (uval b) /\ uval a * ival x + uval b * ival y = uval g /\
       Z.abs (ival x) <= Z.max (uval b) 1 /\ Z.abs (ival y) <= Z.max (uval a) 1.
Proof.
  intros Ha Hb La Lb. destruct (ubig_extended_gcd_spec a b Ha Hb) as [G0 G1]. pose proof (both_zero (uval a) (uval b)) as Z.
  destruct (_ && _); [auto|]. destruct (or_large_fits _ _ _ (G1 Z 0 ltac:(lia) (Z.divide_1_l _) (Z.divide_1_l _))) as ([[g x] y] & -> & R); [rewrite !Z.div_1_r; lia|].
  exists g, x, y. split; [auto|]. exact R.
Qed.

Lemma ibig_extended_gcd_bezout a b : ibig_ok a -> ibig_ok b -> 2 * Z.abs (ival a) < MAXV -> 2 * Z.abs (ival b) < MAXV ->
  if (ival a =? 0) && (ival b =? 0) then ibig_extended_gcd a b = Panic GcdOfZeros
  else exists g x y, ibig_extended_gcd a b = Ok (g, x, y) /\ ibig_ok g /\ ibig_ok x /\ ibig_ok y /\
       ival g = Z.gcd (ival a) (ival b) /\ ival a * ival x + ival b * ival y = ival g /\
       Z.abs (ival x) <= Z.max (Z.abs (ival b)) 1 /\ Z.abs (ival y) <= Z.max (Z.abs (ival a)) 1.
Proof.
  intros Ha Hb La Lb. destruct (ibig_extended_gcd_spec a b Ha Hb) as [G0 G1]. pose proof (both_zero (ival a) (ival b)) as Z.
  destruct (_ && _); [auto|]. destruct (or_large_fits _ _ _ (G1 Z 0 ltac:(lia) (Z.divide_1_l _) (Z.divide_1_l _))) as ([[g x] y] & -> & R); [rewrite !Z.div_1_r; lia|].
  exists g, x, y. split; [auto|]. exact R.
Qed.

Lemma scaled_le m a b k : 0 <= k -> m <= 2 * Z.max (a / 2 ^ k) (b / 2 ^ k) -> m * 2 ^ k <= 2 * Z.max a b.
Proof.
  intros Hk L. assert (P : 0 < 2 ^ k) by (apply Z.pow_pos_nonneg; lia).
  pose proof (Z.mul_div_le a (2 ^ k) P). pose proof (Z.mul_div_le b (2 ^ k) P). remember (2 ^ k) as q. clear Heqq Hk. nia.
Qed.

Lemma ubig_extended_gcd_all a b : ubig_ok a -> ubig_ok b ->
  match ubig_extended_gcd a b with
  | Ok (g, x, y) => ubig_ok g /\ ibig_ok x /\ ibig_ok y /\ (uval a <> 0 \/ uval b <> 0) /\
      uval g = Z.gcd (uval a) (uval b) /\ uval a * ival x + uval b * ival y = uval g /\
      Z.abs (ival x) <= Z.max (uval b) 1 /\ Z.abs (ival y) <= Z.max (uval a) 1
  | Panic p => (p = GcdOfZeros /\ uval a = 0 /\ uval b = 0) \/
      (p = NumberTooLarge /\ forall k, 0 <= k -> (2 ^ k | uval a) -> (2 ^ k | uval b) ->
       MAXV * 2 ^ k <= 2 * Z.max (uval a) (uval b))
  end.
Proof.
  intros Ha Hb. destruct (ubig_extended_gcd_spec a b Ha Hb) as [G0 G1]. pose proof (both_zero (uval a) (uval b)) as Z.
  destruct (_ && _); [rewrite (G0 Z); left; tauto|].
  destruct (G1 Z 0 ltac:(lia) (Z.divide_1_l _) (Z.divide_1_l _)) as [(t & -> & R)|[E _]].
  - destruct t as [[g x] y]. destruct R as (R1 & R2 & R3 & R4 & R5 & R6 & R7). auto 10.
  - rewrite E in *. right. split; [reflexivity|]. intros k Hk Da Db.
    destruct (G1 Z k Hk Da Db) as [(t & C & _)|[_ L]]; [discriminate|]. apply scaled_le; auto.
Qed.

Lemma ibig_extended_gcd_all a b : ibig_ok a -> ibig_ok b ->
  match ibig_extended_gcd a b with
  | Ok (g, x, y) => ibig_ok g /\ ibig_ok x /\ ibig_ok y /\ (ival a <> 0 \/ ival b <> 0) /\
      ival g = Z.gcd (ival a) (ival b) /\ ival a * ival x + ival b * ival y = ival g /\
      Z.abs (ival x) <= Z.max (Z.abs (ival b)) 1 /\ Z.abs (ival y) <= Z.max (Z.abs (ival a)) 1
  | Panic p => (p = GcdOfZeros /\ ival a = 0 /\ ival b = 0) \/
      (p = NumberTooLarge /\ forall k, 0 <= k -> (2 ^ k | ival a) -> (2 ^ k | ival b) ->
       MAXV * 2 ^ k <= 2 * Z.max (Z.abs (ival a)) (Z.abs (ival b)))
  end.
Proof.
  intros Ha Hb. destruct (ibig_extended_gcd_spec a b Ha Hb) as [G0 G1]. pose proof (both_zero (ival a) (ival b)) as Z.
  destruct (_ && _); [rewrite (G0 Z); left; tauto|].
  destruct (G1 Z 0 ltac:(lia) (Z.divide_1_l _) (Z.divide_1_l _)) as [(t & -> & R)|[E _]].
  - destruct t as [[g x] y]. destruct R as (R1 & R2 & R3 & R4 & R5 & R6 & R7). auto 10.
  - rewrite E in *. right. split; [reflexivity|]. intros k Hk Da Db.
    destruct (G1 Z k Hk Da Db) as [(t & C & _)|[_ L]]; [discriminate|]. apply scaled_le; auto.
Qed.

Lemma extended_gcd_too_large :
  exists a b, ubig_ok a /\ ubig_ok b /\ uval a = 2 /\ uval b = MAXV - 1 /\ ubig_extended_gcd a b = Panic NumberTooLarge.
Proof.
  destruct max_exists as (b & Hb & Vb). exists (Small 2), b. split; [apply two_ok|]. split; [auto|]. split; [auto|].
  split; [auto|]. apply extended_gcd_limit; auto.
Qed.

Lemma half_exists : exists a, ubig_ok a /\ 2 * uval a = MAXV - 2.
Proof.
  pose proof MAXV_even as E. pose proof two_MAXV. destruct (representable (MAXV / 2 - 1)) as (a & Ha & Va).
  - pose proof (Z.div_mod MAXV 2). lia.
  - exists a. split; [auto|]. rewrite Va. pose proof (Z.div_mod MAXV 2). lia.
Qed.

End GcdApi.
