(** C37: random sampling stays in range and is unbiased. *)
From Coq Require Import QArith.
From Verif Require Import Model.Base Model.Words Model.Buffer Model.UBig Model.IBig Model.Convert Model.AddOps Model.Rand
  Spec.Val Spec.Num Spec.Rand Proofs.RandProofs Proofs.Samples.
Open Scope Z_scope.

(** [samples_ubig], [samples_ibig]: Spec/Rand.v. *)
Theorem C37_ubig_new (A : Arch) (AOK : ArchOk A) (low high : ubig) :
  ubig_ok low -> ubig_ok high ->
  (uval low < uval high -> exists s, uniform_ubig_new low high = Ok s /\
     samples_ubig (fun k => uniform_ubig_sample k s) (uval low) (uval high)) /\
  (uval low = uval high -> uniform_ubig_new low high = Panic EmptyRange) /\
  (uval high < uval low -> uniform_ubig_new low high = Panic NegativeUBig).
Proof. exact (ubig_new_spec low high). Qed.
Print Assumptions C37_ubig_new.

(** The range must have fewer than 2^MAX_BIT_LEN numbers. *)
Theorem C37_ubig_new_inclusive (A : Arch) (AOK : ArchOk A) (low high : ubig) :
  ubig_ok low -> ubig_ok high ->
  (uval low <= uval high -> uval high - uval low + 1 < MAXV -> exists s, uniform_ubig_new_inclusive low high = Ok s /\
     samples_ubig (fun k => uniform_ubig_sample k s) (uval low) (uval high + 1)) /\
  (uval high - uval low + 1 = MAXV -> uniform_ubig_new_inclusive low high = Panic NumberTooLarge) /\
  (uval high < uval low -> uniform_ubig_new_inclusive low high = Panic NegativeUBig).
Proof. exact (ubig_new_inclusive_spec low high). Qed.
Print Assumptions C37_ubig_new_inclusive.

Theorem C37_ibig_new (A : Arch) (AOK : ArchOk A) (low high : ibig) :
  ibig_ok low -> ibig_ok high ->
  (ival low < ival high -> ival high - ival low < MAXV -> exists s, uniform_ibig_new low high = Ok s /\
     samples_ibig (fun k => uniform_ibig_sample k s) (ival low) (ival high)) /\
  (ival high <= ival low -> ival low - ival high < MAXV -> uniform_ibig_new low high = Panic EmptyRange) /\
  (MAXV <= Z.abs (ival high - ival low) -> uniform_ibig_new low high = Panic NumberTooLarge).
Proof. exact (ibig_new_spec low high). Qed.
Print Assumptions C37_ibig_new.

Theorem C37_ibig_new_inclusive (A : Arch) (AOK : ArchOk A) (low high : ibig) :
  ibig_ok low -> ibig_ok high ->
  (ival low <= ival high -> ival high - ival low + 1 < MAXV -> exists s, uniform_ibig_new_inclusive low high = Ok s /\
     samples_ibig (fun k => uniform_ibig_sample k s) (ival low) (ival high + 1)) /\
  (ival high < ival low -> ival low - ival high < MAXV -> uniform_ibig_new_inclusive low high = Panic EmptyRange) /\
  (MAXV <= ival high - ival low + 1 \/ MAXV <= ival low - ival high -> uniform_ibig_new_inclusive low high = Panic NumberTooLarge).
Proof. exact (ibig_new_inclusive_spec low high). Qed.
Print Assumptions C37_ibig_new_inclusive.

(** The run of a model computation on given answers. *)
Fixpoint answer {T : Type} (m : rand T) (cs : list Z) : option (res T) :=
  match m, cs with
  | Ret x, [] => Some (Ok x)
  | Fail p, [] => Some (Panic p)
  | Pick n k, c :: cs => if (0 <=? c) && (c <? n) then answer (k c) cs else None
  | _, _ => None
  end.

(** [10, 10 + 2^16 + 5): the first attempt hits the bound exactly, or exceeds it,
    and fails; the second returns 3, or 2^16 + 4, above the lower end. *)
Example C37_runs : let A := arch16 in
  let low := Small 10 in let high := lg [15; 1] in
  let sample k cs := match uniform_ubig_new low high with
    | Ok s => match answer (uniform_ubig_sample k s) cs with
              | Some (Ok (Some u)) => Some (uval u) | _ => None end
    | Panic _ => None end in
  ubig_ok low /\ ubig_ok high /\ uval low < uval high /\
  sample 1%nat [1; 5] = None /\ sample 2%nat [1; 5; 0; 3] = Some 13 /\ sample 2%nat [1; 9; 1; 4] = Some (2 ^ 16 + 14).
Proof. cbv zeta. sample. Qed.

(** Ranges of one word: every number below 4 has probability 1/4. *)
Example C37_small : let A := arch16 in
  let s := mkUniformIBig (Small 4) (neg (Small 2)) in
  uniform_ibig_new (neg (Small 2)) (pos (Small 2)) = Ok s /\
  (prob (uniform_ibig_sample 1 s) (fun r => match r with Ok (Some x) => (ival x =? -1)%Z | _ => false end) == 1 # 4)%Q.
Proof. cbv zeta. split; vm_compute; reflexivity. Qed.
