(** The tool that finds primes: the search for roots and for primes. *)
From Coq Require Import ZArith Znumtheory Zpow_facts List Sorted Lia.
From Verif Require Import Model.Base Model.Words Model.Buffer Model.UBig Model.IBig Model.Convert Model.AddOps Model.MulOps
  Model.ShiftOps Model.Bits Model.DivOps Model.Gcd Model.Rand Model.Modular Model.Tools
  Spec.Val Spec.Num Spec.Prim Spec.Modular Spec.Rand Spec.Order Spec.PrimeSearch
  Proofs.Basics Proofs.BufferProofs Proofs.ConvertProofs Proofs.AddOpsProofs Proofs.MulOpsProofs Proofs.ShiftOpsProofs Proofs.DivOpsProofs
  Proofs.BitCountProofs Proofs.GcdProofs Proofs.RandProofs Proofs.ModularProofs Proofs.ModularApi Proofs.ModularRoom Proofs.ModularTheorems
  Proofs.OrderProofs Proofs.PrimitiveRoots Proofs.PrimeTest Proofs.PrimeToolProofs.
Open Scope Z_scope.

(** ** Roots *)

Lemma two_pow_step order : 1 <= order -> 2 ^ order = 2 * 2 ^ (order - 1) /\ 0 < 2 ^ (order - 1).
Proof. intros H. split; [rewrite <- Z.pow_succ_r by lia; f_equal; lia|apply Z.pow_pos_nonneg; lia]. Qed.

Lemma order_by_half p g order : prime p -> 2 < p -> 1 <= order -> (g ^ 2 ^ (order - 1) mod p = p - 1 <-> has_order g (2 ^ order) p).
Proof.
  intros P Hp Ho. pose proof (two_pow_step order Ho) as [E2 PP]. split.
  - intros E. apply order_exact; [exact Hp|exact Ho|]. rewrite E. symmetry. apply minus_one_mod. lia.
  - intros [E N]. destruct (square_root_of_one p (g ^ 2 ^ (order - 1) mod p) P) as [C|C]; [apply Z.mod_pos_bound; lia| | |exact C].
    + rewrite square_step by lia. replace (order - 1 + 1) with order by lia. exact E.
    + elim (N (2 ^ (order - 1))); [clear - E2 PP; lia|exact C].
Qed.

Lemma least_root_exists p order : prime p -> 2 < p -> 1 <= order -> (2 ^ order | p - 1) -> exists g, least_root order p g.
Proof.
  intros P Hp Ho D. pose proof (two_pow_step order Ho) as [E2 PP].
  destruct (element_of_order p P (2 ^ order) ltac:(lia) D) as (x & Hx & Ox). apply order_by_half in Ox; [|exact P|exact Hp|exact Ho].
  assert (K : forall n, 1 <= n < p -> n ^ 2 ^ (order - 1) mod p = p - 1 -> exists g, 1 <= g < p /\ g ^ 2 ^ (order - 1) mod p = p - 1 /\
    forall h, 1 <= h < g -> h ^ 2 ^ (order - 1) mod p <> p - 1).
  { intros n Hn. rewrite <- (Z2Nat.id n) in Hn |- * by lia. remember (Z.to_nat n) as k eqn:Ek. clear Ek n.
    induction k as [k IH] using lt_wf_ind. intros E.
    destruct (existsb (fun j => Z.of_nat j ^ 2 ^ (order - 1) mod p =? p - 1) (seq 1 (k - 1))) eqn:X.
    - apply existsb_exists in X as (j & Hj & Ej). apply in_seq in Hj. apply Z.eqb_eq in Ej. apply (IH j); [lia|lia|exact Ej].
    - exists (Z.of_nat k). split; [exact Hn|]. split; [exact E|]. intros h Hh C.
      assert (T : existsb (fun j => Z.of_nat j ^ 2 ^ (order - 1) mod p =? p - 1) (seq 1 (k - 1)) = true); [|congruence].
      apply existsb_exists. exists (Z.to_nat h). split; [apply in_seq; lia|]. rewrite Z2Nat.id by lia. apply Z.eqb_eq. exact C. }
  destruct (K x Hx Ox) as (g & Hg & Eg & Ng). exists g. split; [exact Hg|]. split; [apply order_by_half; assumption|].
  intros h Hh Oh. apply order_by_half in Oh; [|exact P|exact Hp|exact Ho]. destruct (Z_lt_ge_dec h g) as [L|G]; [elim (Ng h); [lia|exact Oh]|lia].
Qed.

Section Search.
Context {A : Arch} {AOK : ArchOk A}.

Lemma root_loop_spec r p order exponent g : is_ring r p -> p < MAXV -> prime p -> 2 < p -> 1 <= order -> ubig_ok exponent -> uval exponent = 2 ^ (order - 1) ->
  room_for_pow p (2 ^ (order - 1)) = true -> least_root order p g ->
  forall tries root, ubig_ok root -> 1 <= uval root <= g ->
  exists o, root_loop tries r exponent root = Ok o /\
    match o with Some u => ubig_ok u /\ uval u = g /\ g < uval root + Z.of_nat tries | None => uval root + Z.of_nat tries <= g end.
Proof.
  intros Hr Hp P Hp2 Ho He Ee HR (Hg & Og & Ng). induction tries as [|tries IH]; intros root Hroot L; cbn [root_loop].
  - exists None. split; [reflexivity|]. cbn [Z.of_nat]. clear - L. lia.
  - assert (LR : 0 <= uval root < p) by (clear - L Hg; lia).
    destruct (ubig_into_modulo_spec r p root Hr Hroot) as [[_ (m & -> & Hm)] _]; [apply (residue_room r p); [exact Hr|exact LR]|]. cbn [bind].
    rewrite Z.mod_small in Hm by exact LR.
    destruct (pow_spec r p m _ exponent Hm He) as (q & -> & Hq); [rewrite Ee; exact HR|]. cbn [bind].
    destruct (signed_into_modulo_spec r p 32 (-1) Hr) as (mo & -> & Hmo); [right; right; left; reflexivity|clear; lia|]. cbn [bind].
    rewrite minus_one_mod in Hmo by (clear - Hp2; lia). rewrite (eq_spec r p q _ mo _ Hq Hmo). cbn [bind]. rewrite Ee.
    pose proof (order_by_half p (uval root) order P Hp2 Ho) as OH.
    destruct (Z.eqb_spec (uval root ^ 2 ^ (order - 1) mod p) (p - 1)) as [E|N].
    + exists (Some root). split; [reflexivity|]. split; [exact Hroot|]. apply OH in E. specialize (Ng (uval root) ltac:(clear - L; lia) E).
      split; [clear - Ng L; lia|clear - Ng L; lia].
    + assert (NE : uval root <> g). { intros E. apply N. apply OH. rewrite E. exact Og. }
      destruct (literal_spec 1 ltac:(clear; lia)) as (c & -> & Hc & Ec). cbn [bind].
      destruct (ubig_add_vv_yields root c Hroot Hc) as [S1 _]. rewrite Ec in S1. destruct S1 as (r' & E' & Hr' & Er'); [clear - LR Hp L Hg NE; lia|].
      unfold ubig_add_assign_v. rewrite E'. cbn [bind].
      destruct (IH r' Hr') as (o & -> & Hoo); [clear - Er' L NE; lia|]. exists o. split; [reflexivity|]. destruct o as [u|].
      * destruct Hoo as (K1 & K2 & K3). split; [exact K1|]. split; [exact K2|]. clear - K3 Er'. lia.
      * clear - Hoo Er'. lia.
Qed.

(** The search for a root finds the least one, once it has been allowed enough tries. *)
Theorem find_root_spec pu order : ubig_ok pu -> prime (uval pu) -> 1 <= order -> order - 1 < 2 ^ ubits -> (2 ^ order | uval pu - 1) ->
  room_for_pow (uval pu) (2 ^ (order - 1)) = true ->
  exists g, least_root order (uval pu) g /\ forall tries,
    if g <=? Z.of_nat tries then exists u, find_root tries pu order = Ok (Some u) /\ ubig_ok u /\ uval u = g
    else find_root tries pu order = Ok None.
Proof.
  intros Hpu P Ho Hu D HR. pose proof (two_pow_step order Ho) as [E2 PP]. pose proof (ubig_ok_val pu Hpu) as [_ Vp]. pose proof (prime_ge_2 _ P) as G2.
  assert (Hp2 : 2 < uval pu). { assert (LE : 2 ^ order <= uval pu - 1) by (apply Z.divide_pos_le; [clear - G2; lia|exact D]). clear - LE E2 PP G2. lia. }
  destruct (least_root_exists _ order P Hp2 Ho D) as (g & LR). exists g. split; [exact LR|]. intros tries. unfold find_root.
  destruct (Z.leb_spec 1 order) as [_|C]; [|clear - C Ho; lia]. cbn [bind assert].
  destruct (ring_new_ring 0 pu Hpu ltac:(clear - Hp2; lia)) as (r & -> & Hr & _). cbn [bind].
  destruct (literal_spec 1 ltac:(clear; lia)) as (c & -> & Hc & Ec). cbn [bind].
  destruct (ubig_shl_v_yields c (order - 1) Hc ltac:(clear - Ho Hu; lia)) as [S1 _]. rewrite Ec, Z.mul_1_l in S1.
  destruct S1 as (e & -> & He & Ee).
  { assert (LE : 2 ^ order <= uval pu - 1) by (apply Z.divide_pos_le; [clear - G2; lia|exact D]). clear - LE E2 PP Vp. lia. }
  cbn [bind].
  destruct (root_loop_spec r (uval pu) order e g Hr Vp P Hp2 Ho He Ee HR LR tries c Hc) as (o & -> & Hoo).
  { rewrite Ec. destruct LR as (K & _). clear - K. lia. }
  rewrite Ec in Hoo. destruct (Z.leb_spec g (Z.of_nat tries)) as [L|G]; destruct o as [u|].
  - exists u. split; [reflexivity|]. destruct Hoo as (K1 & K2 & _). split; assumption.
  - clear - Hoo L. lia.
  - destruct Hoo as (_ & _ & K). clear - K G. lia.
  - reflexivity.
Qed.
End Search.
