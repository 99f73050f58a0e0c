(** The num-traits implementations meet the contracts of the traits, except abs_sub. *)
From Verif Require Import Model.Base Model.Words Model.Buffer Model.UBig Model.IBig Model.Convert Model.AddOps Model.Pow Model.NumTraits
  Spec.Val Spec.Num Spec.Prim Proofs.Basics Proofs.BufferProofs Proofs.ConvertProofs Proofs.AddOpsProofs Proofs.DivOpsProofs.
From Coq Require Import Lia.

Section NumTraitsProofs.
Context {A : Arch} {AOK : ArchOk A}.

Lemma u8_spec z : 0 <= z < 256 -> exists u, ubig_from_unsigned 8 z = Ok u /\ ubig_ok u /\ uval u = z.
Proof. intros. apply ubig_from_unsigned_spec; [left; reflexivity|lia]. Qed.
Lemma iu8_spec z : 0 <= z < 256 -> exists u, ibig_from_unsigned 8 z = Ok u /\ ibig_ok u /\ ival u = z.
Proof. intros. apply ibig_from_unsigned_spec; [left; reflexivity|lia]. Qed.

Lemma eq_bool (b : bool) (z : Z) : (b = true <-> z = 0) -> b = (z =? 0).
Proof. intros H. destruct b, (Z.eqb_spec z 0); auto; [exfalso; apply n; apply H; auto|apply H; auto]. Qed.

Lemma zero_ubig : returns nt_ubig_zero 0 /\ returns nt_ubig_one 1.
Proof. split; apply u8_spec; lia. Qed.
Lemma zero_ibig : ireturns nt_ibig_zero 0 /\ ireturns nt_ibig_one 1.
Proof. split; apply iu8_spec; lia. Qed.

Lemma ubig_is_zero_spec u : ubig_ok u -> nt_ubig_is_zero u = Ok (uval u =? 0).
Proof.
  intros H. unfold nt_ubig_is_zero. destruct (u8_spec 0 ltac:(lia)) as (z & -> & Hz & E). cbn [bind]. f_equal.
  apply eq_bool. rewrite ubig_eqb_spec, E by auto. reflexivity.
Qed.
Lemma ibig_is_zero_spec x : ibig_ok x -> nt_ibig_is_zero x = Ok (ival x =? 0).
Proof.
  intros H. unfold nt_ibig_is_zero. destruct (iu8_spec 0 ltac:(lia)) as (z & -> & Hz & E). cbn [bind]. f_equal.
  apply eq_bool. rewrite ibig_eqb_spec, E by auto. reflexivity.
Qed.

Lemma signed_spec x : ibig_ok x ->
  ireturns (nt_abs x) (Z.abs (ival x)) /\ ireturns (nt_signum x) (Z.sgn (ival x)) /\
  nt_is_positive x = Ok (0 <? ival x) /\ nt_is_negative x = Ok (ival x <? 0).
Proof.
  intros H. split; [apply abs_ref_spec; auto|]. split; [apply signum_spec; auto|].
  unfold nt_is_positive, nt_is_negative. destruct (iu8_spec 0 ltac:(lia)) as (z & -> & Hz & E). cbn [bind].
  rewrite ibig_cmp_spec, E by auto. cbn [bind].
  destruct (Z.compare_spec (ival x) 0); split; f_equal; symmetry; lia.
Qed.

Lemma abs_sub_all x y : ibig_ok x -> ibig_ok y -> iyields (nt_abs_sub x y) (Z.abs (ival x - ival y)).
Proof.
  intros Hx Hy. destruct (ibig_sub_rr_yields x y Hx Hy) as [Y1 Y2]. unfold nt_abs_sub, iyields. rewrite Z.abs_involutive. split.
  - intros L. destruct (Y1 L) as (d & -> & Hd & E). cbn [bind]. destruct (abs_spec d Hd) as [H1 H2].
    exists (ibig_abs d). rewrite H2, E. auto.
  - intros L. rewrite (Y2 L). reflexivity.
Qed.

Lemma abs_sub_ge x y : ibig_ok x -> ibig_ok y -> ival y <= ival x -> iyields (nt_abs_sub x y) (Z.max (ival x - ival y) 0).
Proof. intros Hx Hy L. rewrite Z.max_l, <- (Z.abs_eq (ival x - ival y)) by lia. apply abs_sub_all; auto. Qed.

Lemma abs_sub_wrong : exists x y d, ibig_ok x /\ ibig_ok y /\ nt_abs_sub x y = Ok d /\
  ival d <> Z.max (ival x - ival y) 0.
Proof.
  destruct (iu8_spec 3 ltac:(lia)) as (x & _ & Hx & Ex). destruct (iu8_spec 5 ltac:(lia)) as (y & _ & Hy & Ey).
  assert (2 < MAXV) as L by (pose proof (ibig_ok_val y Hy); lia).
  destruct (proj1 (abs_sub_all x y Hx Hy)) as (d & E & Hd & V); [rewrite Ex, Ey; cbn; lia|].
  exists x, y, d. rewrite V, Ex, Ey. repeat split; auto; try apply Hx; try apply Hy. cbn. lia.
Qed.
End NumTraitsProofs.
