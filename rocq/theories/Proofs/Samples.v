(** Concrete build configurations and numbers for the examples beside the
    theorems, and a decision procedure for the representation invariant. *)
From Verif Require Import Model.Base Model.Words Model.Buffer Model.UBig Model.IBig Spec.Val Spec.Num Proofs.Basics.
From Coq Require Import Lia.

Definition arch64 : Arch := mkArch 64 64 (fun n => n).
Definition arch32 : Arch := mkArch 32 32 (fun n => n).
Definition arch16 : Arch := mkArch 16 16 (fun n => n).
(** Where [Vec] rounds capacities up. *)
Definition roomy16 : Arch := mkArch 16 16 (fun n => 2 * n + 3).
#[export] Instance roomy16_ok : ArchOk roomy16. Proof. repeat split; cbn; intros; try tauto; lia. Qed.
#[export] Instance arch64_ok : ArchOk arch64. Proof. repeat split; cbn; intros; try tauto; lia. Qed.
#[export] Instance arch32_ok : ArchOk arch32. Proof. repeat split; cbn; intros; try tauto; lia. Qed.
#[export] Instance arch16_ok : ArchOk arch16. Proof. repeat split; cbn; intros; try tauto; lia. Qed.

Section Samples.
Context {A : Arch}.

Definition wfb (ws : list Z) : bool := forallb (fun w => (0 <=? w) && (w <? B)) ws.

Definition ubig_okb (u : ubig) : bool :=
  match u with
  | Small w => (0 <=? w) && (w <? B)
  | Large b =>
      wfb (words b) && (2 <=? length (words b))%nat && negb (last (words b) 0 =? 0) &&
      (len (words b) <=? MAX_LEN) && (len (words b) <=? cap b) &&
      (cap b <=? max_cap (len (words b)))
  end.

Definition ibig_okb (x : ibig) : bool :=
  ubig_okb (imag x) && match isign x with Positive => true | Negative => negb (val (as_words (imag x)) =? 0) end.

Lemma wfb_wf ws : wfb ws = true -> wf ws.
Proof. intros H. apply Forall_forall. intros x Hx. apply (proj1 (forallb_forall _ _)) with (x := x) in H; auto. unfold word_ok. lia. Qed.

Lemma ubig_okb_ok u : ubig_okb u = true -> ubig_ok u.
Proof.
  destruct u as [w|b]; cbn [ubig_okb ubig_ok]; [lia|].
  intros H. repeat (apply andb_prop in H as [H ?]). split; [apply wfb_wf; auto|]. split; [apply Nat.leb_le; auto|].
  split; [lia|]. split; [lia|]. split; lia.
Qed.

Lemma ibig_okb_ok x : ibig_okb x = true -> ibig_ok x.
Proof.
  intros H. apply andb_prop in H as [H1 H2]. split; [apply ubig_okb_ok; auto|]. intros E. destruct (isign x); [auto|].
  exfalso. destruct (imag x) as [w|b]; cbn [as_words uval] in *; [|lia]. subst. cbn [Z.eqb val negb] in H2. discriminate.
Qed.

(** A number of at least two words. *)
Definition lg (ws : list Z) : ubig := Large (mkBuffer ws (len ws + 1)).
Definition pos (u : ubig) : ibig := mkIBig Positive u.
Definition neg (u : ubig) : ibig := mkIBig Negative u.

End Samples.

(** Proves conjunctions of invariants of concrete numbers and of computations. *)
Ltac sample :=
  repeat match goal with
  | |- _ /\ _ => split
  | |- ubig_ok _ => apply ubig_okb_ok; vm_compute; reflexivity
  | |- ibig_ok _ => apply ibig_okb_ok; vm_compute; reflexivity
  | |- wf _ => apply wfb_wf; vm_compute; reflexivity
  | |- _ => vm_compute; solve [reflexivity | discriminate | intros; discriminate | repeat split]
  end.

(** The numbers returned by concrete computations. *)
Definition uresult {A : Arch} (r : res ubig) : res Z := match r with Ok u => Ok (uval u) | Panic p => Panic p end.
Definition iresult {A : Arch} (r : res ibig) : res Z := match r with Ok x => Ok (ival x) | Panic p => Panic p end.
Definition uresult2 {A : Arch} (r : res (ubig * ubig)) : res (Z * Z) :=
  match r with Ok (u, v) => Ok (uval u, uval v) | Panic p => Panic p end.
Definition iresult2 {A : Arch} (r : res (ibig * ibig)) : res (Z * Z) :=
  match r with Ok (u, v) => Ok (ival u, ival v) | Panic p => Panic p end.
