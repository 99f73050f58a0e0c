(** Concrete texts for the examples beside the theorems. *)
From Verif Require Import Model.Base Model.UBig Model.IBig Model.Parse Spec.Val Spec.Num Spec.Digits Spec.Text.
From Coq Require Export String.
From Coq Require Import Ascii List NArith Lia.

(** The bytes of an ASCII string. *)
Definition txt (s : string) : list Z := map (fun c => Z.of_N (N_of_ascii c)) (list_ascii_of_string s).
Arguments txt s%string.

Section TextSamples.
Context {A : Arch}.
Definition parsed (m : res (presult ubig)) : res (presult Z) :=
  match m with Ok (POk u) => Ok (POk (uval u)) | Ok (PErr e) => Ok (PErr e) | Panic p => Panic p end.
Definition iparsed (m : res (presult ibig)) : res (presult Z) :=
  match m with Ok (POk x) => Ok (POk (ival x)) | Ok (PErr e) => Ok (PErr e) | Panic p => Panic p end.
End TextSamples.

(** Proves [numeral r s v] from the list of digits. *)
Ltac numeral_by ds :=
  match goal with |- numeral ?r ?s ?v => let s' := eval vm_compute in s in change (numeral r s' v) end;
  split; [discriminate|]; exists ds;
  split; [repeat (apply Forall2_cons; [unfold digit_char; lia|]); apply Forall2_nil|];
  split; [repeat (apply Forall_cons; [lia|]); apply Forall_nil|]; vm_compute; reflexivity.

Lemma ten_ok : 2 <= 10 <= 36. Proof. lia. Qed.

Lemma not_numeral_12a : ~ (exists v, numeral 10 (txt "12a") v).
Proof.
  intros (v & _ & ds & H & O & _). inversion H as [|? ? ? ? _ H1]; subst. inversion H1 as [|? ? ? ? _ H2]; subst.
  inversion H2 as [|? ? ? ? H3 _]; subst. inversion O as [|? ? _ O1]; subst. inversion O1 as [|? ? _ O2]; subst.
  inversion O2 as [|? ? O3 _]; subst. unfold digit_char in H3. lia.
Qed.
