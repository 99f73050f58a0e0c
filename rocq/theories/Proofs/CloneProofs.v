(** A copy does not depend on how the source was computed. *)
From Verif Require Import Model.Base Model.Words Model.Buffer Model.UBig Model.IBig
  Spec.Val Spec.Num Proofs.Basics Proofs.BufferProofs.
From Coq Require Import Lia.

Section Clone.
Context {A : Arch} {AOK : ArchOk A}.

Lemma clone_same u v : ubig_ok u -> ubig_ok v -> uval u = uval v -> ubig_clone u = ubig_clone v.
Proof.
  intros Hu Hv E. pose proof (ubig_repr_inj u v Hu Hv E) as R.
  destruct u as [x|[x c]], v as [y|[y d]]; try contradiction; [congruence|].
  cbn [words] in R. subst y. reflexivity.
Qed.

Lemma clone_from_same u v w : ubig_ok v -> ubig_ok w -> uval v = uval w -> ubig_clone_from u v = ubig_clone_from u w.
Proof.
  intros Hv Hw E. pose proof (ubig_repr_inj v w Hv Hw E) as R.
  destruct v as [x|[x c]], w as [y|[y d]]; try contradiction; [rewrite R; reflexivity|].
  cbn [words] in R. subst y. destruct u; reflexivity.
Qed.

Lemma iclone_same x y : ibig_ok x -> ibig_ok y -> ival x = ival y -> ibig_clone x = ibig_clone y.
Proof.
  intros (Hx & Sx) (Hy & Sy) E. unfold ibig_clone, ival in *.
  pose proof (uval_nonneg _ Hx) as Px. pose proof (uval_nonneg _ Hy) as Py.
  assert (Q : isign x = isign y /\ uval (imag x) = uval (imag y)).
  { destruct (isign x), (isign y); cbn [sign_val] in E; split; try reflexivity; try lia;
      exfalso; [assert (Z0 : uval (imag y) = 0) by lia; specialize (Sy Z0)|assert (Z0 : uval (imag x) = 0) by lia; specialize (Sx Z0)]; discriminate. }
  destruct Q as (S & V). rewrite S, (clone_same _ _ Hx Hy V). reflexivity.
Qed.

End Clone.
