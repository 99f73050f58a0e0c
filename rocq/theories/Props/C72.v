(** C72: how many random words a sample takes. *)
From Coq Require Import ZArith List QArith Lia.
From Verif Require Import Model.Base Model.UBig Model.IBig Model.Rand Spec.Val Spec.Num Spec.Rand Spec.Draws Proofs.RandCost Proofs.Samples.
Import ListNotations.
Open Scope Z_scope.

(** A range of less than 2^(wbits * N) numbers takes at most 2 * N random words on average,
    however many attempts are allowed; and [k] attempts take at most [k * N], whatever the
    generator answers. *)
Theorem C72_ubig (A : Arch) (AOK : ArchOk A) (f : ubig -> ubig -> res UniformUBig) (hi : Z) (low high : ubig) (s : UniformUBig) (N : Z) :
  ubig_ok low -> ubig_ok high ->
  In (f, hi) [(uniform_ubig_new, uval high); (uniform_ubig_new_inclusive, uval high + 1)] -> f low high = Ok s ->
  1 <= N -> hi - uval low < 2 ^ (wbits * N) ->
  (forall k, draws (uniform_ubig_sample k s) <= 2 * inject_Z N)%Q /\
  (forall k cs r, (0 < k)%nat -> runs (uniform_ubig_sample k s) cs r -> Z.of_nat (length cs) <= Z.of_nat k * N).
Proof. exact (ubig_draws f hi low high s N). Qed.
Print Assumptions C72_ubig.

Theorem C72_ibig (A : Arch) (AOK : ArchOk A) (f : ibig -> ibig -> res UniformIBig) (hi : Z) (low high : ibig) (s : UniformIBig) (N : Z) :
  ibig_ok low -> ibig_ok high ->
  In (f, hi) [(uniform_ibig_new, ival high); (uniform_ibig_new_inclusive, ival high + 1)] -> f low high = Ok s ->
  1 <= N -> hi - ival low < 2 ^ (wbits * N) ->
  (forall k, draws (uniform_ibig_sample k s) <= 2 * inject_Z N)%Q /\
  (forall k cs r, (0 < k)%nat -> runs (uniform_ibig_sample k s) cs r -> Z.of_nat (length cs) <= Z.of_nat k * N).
Proof. exact (ibig_draws f hi low high s N). Qed.
Print Assumptions C72_ibig.

(** [10, 10 + 2^16 + 5): two words.  Two attempts can take four words. *)
Example C72_case : let A := arch16 in let low := Small 10 in let high := lg [15; 1] in
  ubig_ok low /\ ubig_ok high /\ uval high - uval low < 2 ^ (wbits * 2) /\
  exists s, uniform_ubig_new low high = Ok s /\ runs (uniform_ubig_sample 2 s) [1; 5; 0; 3] (Ok (Some (Small 13))).
Proof.
  cbv zeta. split; [sample|]. split; [sample|]. split; [reflexivity|].
  eexists. split; [vm_compute; reflexivity|]. apply reply_runs. vm_compute. reflexivity.
Qed.

(** One word of four numbers takes exactly one random word. *)
Example C72_small : let A := arch16 in (draws (uniform_ibig_sample 3 (mkUniformIBig (Small 4) (neg (Small 2)))) == 1)%Q.
Proof. vm_compute. reflexivity. Qed.
