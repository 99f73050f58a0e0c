(** Programs over the library compute what the ideal machine computes. *)
From Verif Require Import Model.Base Model.Words Model.Memory Model.FastDivide Model.Mul Model.Div Model.Buffer
  Model.UBig Model.IBig Model.Convert Model.AddOps Model.MulOps Model.ShiftOps Model.Bits Model.DivOps Model.PrimOps
  Model.Gcd Model.Pow Model.Program Spec.Val Spec.Num Spec.Prim Spec.Digits Spec.Ideal
  Proofs.Basics Proofs.BufferProofs Proofs.ConvertProofs Proofs.ApiProofs Proofs.Bounds Proofs.DigitsProofs Proofs.GcdProofs
  Props.C01 Props.C02 Props.C03 Props.C04 Props.C06 Props.C09 Props.C10 Props.C12 Props.C13 Props.C14
  Props.C15 Props.C16 Props.C17 Props.C18 Props.C19 Props.C20 Props.C21 Props.C25 Props.C38 Props.C40 Props.C41.

(** ** The functions of the ideal machine *)
Lemma ptz_div p : (2 ^ ptz p | Zpos p) /\ ~ (2 ^ (ptz p + 1) | Zpos p) /\ 0 <= ptz p.
Proof.
  induction p as [p IH|p IH|]; cbn [ptz].
  - split; [exists (Zpos p~1); rewrite Z.pow_0_r; lia|]. split; [|lia].
    intros [k E]. change (2 ^ (0 + 1)) with 2 in E. rewrite Pos2Z.inj_xI in E. lia.
  - destruct IH as ((k & E) & N & P). split; [|split; [|lia]].
    + exists k. rewrite Pos2Z.inj_xO, E, Z.pow_add_r by lia. ring.
    + intros [j F]. apply N. exists j. rewrite Pos2Z.inj_xO in F.
      replace (1 + ptz p + 1) with (1 + (ptz p + 1)) in F by ring. rewrite Z.pow_add_r in F by lia.
      assert (2 * Zpos p = 2 * (j * 2 ^ (ptz p + 1))) by (rewrite F; ring). lia.
  - split; [exists 1; rewrite Z.pow_0_r; lia|]. split; [|lia].
    intros [k E]. change (2 ^ (0 + 1)) with 2 in E. lia.
Qed.

Lemma tz_unique z i k : z <> 0 -> 0 <= i -> 0 <= k -> (2 ^ i | z) -> ~ (2 ^ (i + 1) | z) -> (2 ^ k | z) -> ~ (2 ^ (k + 1) | z) -> i = k.
Proof.
  assert (forall i k, 0 <= i -> i < k -> (2 ^ k | z) -> (2 ^ (i + 1) | z)) as D.
  { intros a b Ha L [q E]. exists (q * 2 ^ (b - (a + 1))). rewrite E, <- Z.mul_assoc, <- Z.pow_add_r by lia. do 2 f_equal. lia. }
  intros _ Hi Hk D1 N1 D2 N2. destruct (Z.lt_trichotomy i k) as [L|[E|G]]; [|auto|].
  - destruct (N1 (D i k Hi L D2)).
  - destruct (N2 (D k i Hk G D1)).
Qed.

Lemma itz_spec z r : (z = 0 -> r = Ok None) ->
  (z <> 0 -> exists k, r = Ok (Some k) /\ 0 <= k /\ (2 ^ k | z) /\ ~ (2 ^ (k + 1) | z)) -> r = Ok (itz z).
Proof.
  intros H0 H1. destruct z as [|p|p]; cbn [itz]; [auto| |].
  - destruct H1 as (k & -> & Pk & Dk & Nk); [discriminate|]. do 2 f_equal.
    destruct (ptz_div p) as (D & N & P). apply (tz_unique (Zpos p)); auto. discriminate.
  - destruct H1 as (k & -> & Pk & Dk & Nk); [discriminate|]. do 2 f_equal.
    destruct (ptz_div p) as (D & N & P). change (Zneg p) with (- Zpos p) in *.
    apply (tz_unique (Zpos p)); auto; [discriminate| |]; [rewrite <- Z.opp_involutive; apply Z.divide_opp_r in Dk; rewrite Z.opp_involutive|intro C; apply Nk, Z.divide_opp_r, C].
    exact Dk.
Qed.

Lemma ibitlen_spec z k : 0 <= z -> 0 <= k -> z < 2 ^ k -> (forall j, 0 <= j -> z < 2 ^ j -> k <= j) -> k = ibitlen z.
Proof.
  intros Pz Pk L M. unfold ibitlen. destruct (Z.eqb_spec z 0) as [->|N].
  - specialize (M 0 ltac:(lia) ltac:(reflexivity)). lia.
  - pose proof (Z.log2_nonneg z). pose proof (Z.log2_spec z ltac:(lia)) as [L1 L2].
    assert (k <= Z.log2 z + 1) by (apply M; [lia|]; replace (Z.log2 z + 1) with (Z.succ (Z.log2 z)) by lia; lia).
    assert (Z.log2 z < k); [|lia]. apply (Z.pow_lt_mono_r_iff 2); lia.
Qed.

Lemma pow2_test z b : 0 <= z -> (b = true <-> exists k, 0 <= k /\ z = 2 ^ k) -> b = (z =? 2 ^ Z.log2 z).
Proof.
  intros Pz H. destruct (Z.eqb_spec z (2 ^ Z.log2 z)) as [E|N].
  - apply H. exists (Z.log2 z). split; [apply Z.log2_nonneg|auto].
  - destruct b; [|auto]. destruct (proj1 H eq_refl) as (k & Pk & E). destruct N. rewrite E, Z.log2_pow2; auto.
Qed.

Lemma next_pow2 z k : 0 <= z -> 0 <= k -> z <= 2 ^ k -> (forall j, 0 <= j -> z <= 2 ^ j -> 2 ^ k <= 2 ^ j) -> 2 ^ k = 2 ^ Z.log2_up z.
Proof.
  intros Pz Pk L M. pose proof (Z.log2_up_nonneg z) as P2. apply Z.le_antisymm.
  - apply M; [auto|]. destruct (Z.le_gt_cases z 1) as [S|G].
    + pose proof (Z.pow_pos_nonneg 2 (Z.log2_up z) ltac:(lia) P2). lia.
    + apply (Z.log2_up_spec z G).
  - apply Z.pow_le_mono_r; [lia|]. destruct (Z.le_gt_cases z 1) as [S|G].
    + rewrite Z.log2_up_eqn0; lia.
    + rewrite <- (Z.log2_up_pow2 k) by auto. apply Z.log2_up_le_mono, L.
Qed.

Lemma num_bytes z n : num 256 (map (fun i => (z / 256 ^ Z.of_nat i) mod 256) (seq 0 n)) = z mod 256 ^ Z.of_nat n.
Proof.
  induction n as [|n IH]; [symmetry; apply Z.mod_1_r|].
  rewrite seq_S, map_app, num_app, IH, map_length, seq_length. cbn [map num Nat.add].
  rewrite Nat2Z.inj_succ, Z.pow_succ_r by lia. rewrite (Z.mul_comm 256 (256 ^ _)), Z.rem_mul_r; [ring|pose proof (Z.pow_pos_nonneg 256 (Z.of_nat n)); lia|lia].
Qed.

Lemma bitlen_bounds z : 0 < z -> 1 <= ibitlen z /\ 2 ^ (ibitlen z - 1) <= z < 2 ^ ibitlen z.
Proof.
  intros P. unfold ibitlen. destruct (Z.eqb_spec z 0); [lia|]. pose proof (Z.log2_nonneg z).
  replace (Z.log2 z + 1 - 1) with (Z.log2 z) by lia. pose proof (Z.log2_spec z P). change (Z.log2 z + 1) with (Z.succ (Z.log2 z)) at 2. lia.
Qed.

Lemma ibytes_spec z bs : 0 <= z -> digits_ok 256 bs -> num 256 bs = z -> (bs = [] \/ last bs 0 <> 0) -> bs = ibytes z.
Proof.
  intros Pz D V L. destruct (Z.eq_dec z 0) as [->|NZ].
  { destruct L as [->|L]; [reflexivity|]. pose proof (num_top 256 bs ltac:(lia) D L).
    pose proof (Z.pow_pos_nonneg 256 (Z.of_nat (length bs - 1))). lia. }
  apply (C20_shortest_unique bs (ibytes z)); auto.
  - apply Forall_forall. intros d I. unfold ibytes in I. apply in_map_iff in I as (i & <- & _). apply Z.mod_pos_bound. lia.
  - right. unfold ibytes. destruct (bitlen_bounds z ltac:(lia)) as (B1 & B2 & B3).
    destruct (Z.to_nat ((ibitlen z + 7) / 8)) as [|m] eqn:E.
    { exfalso. assert ((ibitlen z + 7) / 8 < 1) by lia. pose proof (Z.div_le_lower_bound (ibitlen z + 7) 8 1). lia. }
    rewrite seq_S, map_app. cbn [map Nat.add]. rewrite last_last.
    assert (Z.of_nat (S m) = (ibitlen z + 7) / 8) as EM by lia.
    pose proof (Z.mul_div_le (ibitlen z + 7) 8 ltac:(lia)). pose proof (Z.mul_succ_div_gt (ibitlen z + 7) 8 ltac:(lia)).
    assert (256 ^ Z.of_nat m <= z).
    { change 256 with (2 ^ 8). rewrite <- Z.pow_mul_r by lia. eapply Z.le_trans; [|exact B2]. apply Z.pow_le_mono_r; lia. }
    assert (z < 256 ^ Z.of_nat m * 256).
    { change 256 with (2 ^ 8). rewrite <- Z.pow_mul_r, <- Z.pow_add_r by lia. eapply Z.lt_le_trans; [exact B3|]. apply Z.pow_le_mono_r; lia. }
    pose proof (Z.pow_pos_nonneg 256 (Z.of_nat m) ltac:(lia) ltac:(lia)) as PP.
    rewrite Z.mod_small.
    + pose proof (Z.div_le_lower_bound z (256 ^ Z.of_nat m) 1 PP). lia.
    + split; [apply Z.div_pos; lia|]. apply Z.div_lt_upper_bound; lia.
  - rewrite V. unfold ibytes. rewrite num_bytes. symmetry. apply Z.mod_small. split; [lia|].
    destruct (bitlen_bounds z ltac:(lia)) as (B1 & B2 & B3).
    pose proof (Z.mul_succ_div_gt (ibitlen z + 7) 8 ltac:(lia)). pose proof (Z.div_pos (ibitlen z + 7) 8).
    rewrite Z2Nat.id by lia. change 256 with (2 ^ 8). rewrite <- Z.pow_mul_r by lia.
    eapply Z.lt_le_trans; [exact B3|]. apply Z.pow_le_mono_r; lia.
Qed.

Section ProgramProofs.
Context {A : Arch} {AOK : ArchOk A}.

(** ** One call *)
Definition urel (r : res ubig) (i : res Z) : Prop :=
  match i with Ok z => exists u, r = Ok u /\ ubig_ok u /\ uval u = z | Panic p => r = Panic p end.
Definition irel (r : res ibig) (i : res Z) : Prop :=
  match i with Ok z => exists u, r = Ok u /\ ibig_ok u /\ ival u = z | Panic p => r = Panic p end.

Lemma rel_yields r z : yields r z -> urel r (fits z).
Proof. intros [H1 H2]. unfold fits. destruct (Z.ltb_spec z MAXV); cbn; auto. Qed.
Lemma rel_returns r z : returns r z -> urel r (Ok z).
Proof. auto. Qed.
Lemma rel_nat r z : yields_nat r z -> urel r (fits_nat z).
Proof. intros [H1 H2]. unfold fits_nat. destruct (Z.ltb_spec z 0); cbn; auto. apply rel_yields; auto. Qed.
Lemma rel_unsigned r z : yields_unsigned r z -> urel r (fits_unsigned z).
Proof.
  intros (H1 & H2 & H3). unfold fits_unsigned. destruct (Z.ltb_spec z 0); [|apply rel_yields; auto].
  destruct (Z.ltb_spec (- z) MAXV); cbn; auto.
Qed.
Lemma rel_div d r z : div_yields d r z -> urel r (over d (Ok z)).
Proof. intros [H1 H2]. unfold over. destruct (Z.eqb_spec d 0); cbn; auto. Qed.
Lemma rel_udiv d r z : udiv_yields d r z -> urel r (over d (natural z)).
Proof.
  intros (H1 & H2 & H3). unfold over, natural. destruct (Z.eqb_spec d 0); [cbn; auto|].
  destruct (Z.ltb_spec z 0); cbn; auto.
Qed.
Lemma rel_iyields r z : iyields r z -> irel r (ifits z).
Proof. intros [H1 H2]. unfold ifits. destruct (Z.ltb_spec (Z.abs z) MAXV); cbn; auto. Qed.
Lemma rel_idiv d r z : idiv_yields d r z -> irel r (over d (Ok z)).
Proof. intros [H1 H2]. unfold over. destruct (Z.eqb_spec d 0); cbn; auto. Qed.

Lemma rel_bits r z : (exists u, r = Ok u /\ ubig_ok u /\ forall i, 0 <= i -> Z.testbit (uval u) i = Z.testbit z i) -> urel r (Ok z).
Proof. intros (u & -> & Hu & E). exists u. split; [auto|]. split; [auto|]. apply C16_bits_determine, E. Qed.
Lemma rel_ibits r z : (exists y, iyields r y /\ forall i, 0 <= i -> Z.testbit y i = Z.testbit z i) -> irel r (ifits z).
Proof. intros (y & Y & E). rewrite <- (C16_bits_determine y z E). apply rel_iyields, Y. Qed.

Lemma Forall_imp {T} (P Q : T -> Prop) l : Forall P l -> (forall x, P x -> Q x) -> Forall Q l.
Proof. intros F H. eapply Forall_impl; [exact H|exact F]. Qed.

Lemma ubin_rel op a b : ubig_ok a -> ubig_ok b -> Forall (fun f => urel (f a b) (ubin_ideal op (uval a) (uval b))) (ubin_fns op).
Proof.
  intros Ha Hb. destruct op; cbn [ubin_fns ubin_ideal].
  - apply (Forall_imp _ _ _ (C01_ubig_add_exact A AOK a b Ha Hb)). intros f. apply rel_yields.
  - apply (Forall_imp _ _ _ (C02_ubig_sub_exact A AOK a b Ha Hb)). intros f. apply rel_nat.
  - apply (Forall_imp _ _ _ (C04_ubig_mul_exact A AOK a b Ha Hb)). intros f. apply rel_yields.
  - apply (Forall_imp _ _ _ (C15_ubig_and A AOK a b Ha Hb)). intros f (u & E & Hu & V). apply rel_bits. exists u. split; [auto|]. split; [auto|].
    intros i Hi. rewrite Z.land_spec. auto.
  - apply (Forall_imp _ _ _ (C15_ubig_or A AOK a b Ha Hb)). intros f (u & E & Hu & V). apply rel_bits. exists u. split; [auto|]. split; [auto|].
    intros i Hi. rewrite Z.lor_spec. auto.
  - apply (Forall_imp _ _ _ (C15_ubig_xor A AOK a b Ha Hb)). intros f (u & E & Hu & V). apply rel_bits. exists u. split; [auto|]. split; [auto|].
    intros i Hi. rewrite Z.lxor_spec. auto.
  - apply (Forall_imp _ _ _ (C15_ubig_and_not A AOK a b Ha Hb)). intros f (u & E & Hu & V). apply rel_bits. exists u. split; [auto|]. split; [auto|].
    intros i Hi. rewrite Z.ldiff_spec. auto.
  - apply (Forall_imp _ _ _ (C06_ubig_div_exact A AOK a b Ha Hb)). intros f. apply rel_div.
  - apply (Forall_imp _ _ _ (C06_ubig_rem_exact A AOK a b Ha Hb)). intros f. apply rel_div.
  - constructor; [|constructor]. destruct (ubig_gcd_spec a b Ha Hb) as [G0 G1].
    destruct (Z.eqb_spec (uval a) 0), (Z.eqb_spec (uval b) 0); cbn [andb]; try (apply rel_returns, G1; lia). cbn. apply G0. lia.
Qed.

Lemma ibin_rel op a b : ibig_ok a -> ibig_ok b -> Forall (fun f => irel (f a b) (ibin_ideal op (ival a) (ival b))) (ibin_fns op).
Proof.
  intros Ha Hb. destruct op; cbn [ibin_fns ibin_ideal].
  - apply (Forall_imp _ _ _ (C03_ibig_add_exact A AOK a b Ha Hb)). intros f. apply rel_iyields.
  - apply (Forall_imp _ _ _ (C03_ibig_sub_exact A AOK a b Ha Hb)). intros f. apply rel_iyields.
  - apply (Forall_imp _ _ _ (C04_ibig_mul_exact A AOK a b Ha Hb)). intros f. apply rel_iyields.
  - apply (Forall_imp _ _ _ (C16_ibig_and A AOK a b Ha Hb)). intros f (u & Y & V). apply rel_ibits. exists u. split; [auto|].
    intros i Hi. rewrite Z.land_spec. auto.
  - apply (Forall_imp _ _ _ (C16_ibig_or A AOK a b Ha Hb)). intros f (u & Y & V). apply rel_ibits. exists u. split; [auto|].
    intros i Hi. rewrite Z.lor_spec. auto.
  - apply (Forall_imp _ _ _ (C16_ibig_xor A AOK a b Ha Hb)). intros f (u & Y & V). apply rel_ibits. exists u. split; [auto|].
    intros i Hi. rewrite Z.lxor_spec. auto.
  - apply (Forall_imp _ _ _ (C16_ibig_and_not A AOK a b Ha Hb)). intros f (u & Y & V). apply rel_ibits. exists u. split; [auto|].
    intros i Hi. rewrite Z.ldiff_spec. auto.
  - apply (Forall_imp _ _ _ (C09_ibig_div_exact A AOK a b Ha Hb)). intros f. apply rel_idiv.
  - apply (Forall_imp _ _ _ (C09_ibig_rem_exact A AOK a b Ha Hb)). intros f. apply rel_idiv.
  - apply (Forall_imp _ _ _ (C10_ibig_div_euclid_exact A AOK a b Ha Hb)). intros f. apply rel_idiv.
  - apply (Forall_imp _ _ _ (C10_ibig_rem_euclid_exact A AOK a b Ha Hb)). intros f. apply rel_idiv.
  - constructor; [|constructor]. destruct (ibig_gcd_spec a b Ha Hb) as [G0 G1].
    destruct (Z.eqb_spec (ival a) 0), (Z.eqb_spec (ival b) 0); cbn [andb]; try (apply G1; lia). cbn. apply G0. lia.
Qed.

Lemma uun_rel op a : ubig_ok a -> Forall (fun f => urel (f a) (uun_ideal op (uval a))) (uun_fns op).
Proof.
  intros Ha. destruct op; cbn [uun_fns uun_ideal].
  - constructor; [|constructor]. apply (ubig_clone_spec a Ha).
  - destruct (C19_next_power_of_two A AOK a Ha) as (k & Pk & L & M & Y1 & Y2).
    pose proof (uval_nonneg a Ha). rewrite <- (next_pow2 (uval a) k) by auto.
    constructor; [|constructor; [|constructor]]; apply rel_yields; auto.
Qed.

Lemma iun_rel op a : ibig_ok a -> Forall (fun f => irel (f a) (iun_ideal op (ival a))) (iun_fns op).
Proof.
  intros Ha. destruct (C41_sign_ops A AOK a Positive Ha) as (N1 & N2 & A1 & A2 & _ & _ & S1 & _).
  destruct op; cbn [iun_fns iun_ideal].
  - constructor; [|constructor]. apply (ibig_clone_spec a Ha).
  - constructor; [|constructor; [|constructor]]; auto.
  - constructor; [|constructor; [|constructor]]; auto.
  - constructor; [|constructor]; auto.
  - apply (Forall_imp _ _ _ (C16_ibig_not A AOK a Ha)). intros f (u & Y & V). apply rel_ibits. exists u. split; [auto|].
    intros i Hi. rewrite Z.lnot_spec by auto. auto.
Qed.

Lemma quot_nonneg a c : 0 <= a -> 0 <= c -> c <> 0 -> a / c = Z.quot a c /\ a mod c = Z.rem a c.
Proof. intros. split; symmetry; [apply Z.quot_div_nonneg|apply Z.rem_mod_nonneg]; lia. Qed.

Lemma rel_div_unsigned c r z y : (c <> 0 -> y = z /\ 0 <= z) -> div_yields c r y -> urel r (over c (natural z)).
Proof.
  intros E [H1 H2]. unfold over, natural. destruct (Z.eqb_spec c 0); [cbn; auto|]. destruct (E n) as [-> P].
  destruct (Z.ltb_spec z 0); [lia|]. cbn. auto.
Qed.

Lemma uprim_rel sg op tb c a : prim_bits tb -> prim_range sg tb c -> ubig_ok a ->
  Forall (fun f => urel (f tb a c) (uprim_ideal sg op (uval a) c)) (uprim_fns sg op).
Proof.
  intros Ht Hc Ha. pose proof (uval_nonneg a Ha) as Pa. destruct sg, op; cbn [uprim_fns uprim_ideal]; try apply Forall_nil.
  - apply (Forall_imp _ _ _ (C38_ubig_add_signed A AOK tb c a Ht Hc Ha)). intros f. apply rel_unsigned.
  - apply (Forall_imp _ _ _ (C38_ubig_sub_signed A AOK tb c a Ht Hc Ha)). intros f. apply rel_unsigned.
  - apply (Forall_imp _ _ _ (C38_ubig_mul_signed A AOK tb c a Ht Hc Ha)). intros f. apply rel_unsigned.
  - apply (Forall_imp _ _ _ (C38_ubig_and_signed A AOK tb c a Ht Hc Ha)). intros f. apply rel_yields.
  - apply (Forall_imp _ _ _ (C38_ubig_or_signed A AOK tb c a Ht Hc Ha)). intros f. apply rel_unsigned.
  - apply (Forall_imp _ _ _ (C38_ubig_xor_signed A AOK tb c a Ht Hc Ha)). intros f. apply rel_unsigned.
  - apply (Forall_imp _ _ _ (C38_ubig_and_not_signed A AOK tb c a Ht Hc Ha)). intros f. apply rel_yields.
  - apply (Forall_imp _ _ _ (C38_ubig_div_signed A AOK tb c a Ht Hc Ha)). intros f. apply rel_udiv.
  - apply (Forall_imp _ _ _ (C38_ubig_rem_assign_signed A AOK tb c a Ht Hc Ha)). intros f. apply rel_div.
  - apply (Forall_imp _ _ _ (C38_ubig_div_euclid_signed A AOK tb c a Ht Hc Ha)). intros f. apply rel_udiv.
  - apply (Forall_imp _ _ _ (C38_ubig_add_unsigned A AOK tb c a Ht Hc Ha)). intros f. apply rel_yields.
  - apply (Forall_imp _ _ _ (C38_ubig_sub_unsigned A AOK tb c a Ht Hc Ha)). intros f. apply rel_nat.
  - apply (Forall_imp _ _ _ (C38_ubig_mul_unsigned A AOK tb c a Ht Hc Ha)). intros f. apply rel_yields.
  - apply (Forall_imp _ _ _ (C38_ubig_and_assign_unsigned A AOK tb c a Ht Hc Ha)). intros f. apply rel_yields.
  - apply (Forall_imp _ _ _ (C38_ubig_or_unsigned A AOK tb c a Ht Hc Ha)). intros f. apply rel_yields.
  - apply (Forall_imp _ _ _ (C38_ubig_xor_unsigned A AOK tb c a Ht Hc Ha)). intros f. apply rel_yields.
  - apply (Forall_imp _ _ _ (C38_ubig_and_not_unsigned A AOK tb c a Ht Hc Ha)). intros f. apply rel_yields.
  - apply (Forall_imp _ _ _ (C38_ubig_div_unsigned A AOK tb c a Ht Hc Ha)). intros f. apply rel_div_unsigned.
    intros N. unfold prim_range in Hc. destruct (quot_nonneg (uval a) c) as [E _]; [lia..|]. split; [auto|]. apply Z.quot_pos; lia.
  - apply (Forall_imp _ _ _ (C38_ubig_rem_assign_unsigned A AOK tb c a Ht Hc Ha)). intros f [H1 H2]. unfold over.
    destruct (Z.eqb_spec c 0); [cbn; auto|]. unfold prim_range in Hc. destruct (quot_nonneg (uval a) c) as [_ E]; [lia..|]. rewrite <- E. cbn. auto.
Qed.

Lemma iprim_rel sg op tb c a : prim_bits tb -> prim_range sg tb c -> ibig_ok a ->
  Forall (fun f => irel (f tb a c) (iprim_ideal op (ival a) c)) (iprim_fns sg op).
Proof.
  intros Ht Hc Ha.
  assert (forall (fns : list (bool -> Z -> ibig -> Z -> res ibig)) (z : res Z), Forall (fun f => irel (f sg tb a c) z) fns ->
    Forall (fun f => irel (f tb a c) z) (map (fun f => f sg) fns)) as M.
  { intros fns z F. apply Forall_map. exact F. }
  destruct op; cbn [iprim_ideal].
  - apply (M [_; _; _]), (Forall_imp _ _ _ (C38_ibig_add_primitive A AOK sg tb c a Ht Hc Ha)). intros f. apply rel_iyields.
  - apply (M [_; _; _]), (Forall_imp _ _ _ (C38_ibig_sub_primitive A AOK sg tb c a Ht Hc Ha)). intros f. apply rel_iyields.
  - apply (M [_; _]), (Forall_imp _ _ _ (C38_primitive_sub_ibig A AOK sg tb c a Ht Hc Ha)). intros f. apply rel_iyields.
  - apply (M [_; _; _]), (Forall_imp _ _ _ (C38_ibig_mul_primitive A AOK sg tb c a Ht Hc Ha)). intros f. apply rel_iyields.
  - cbn [iprim_fns]. constructor.
    + pose proof (Forall_inv (C38_ibig_and_assign_primitive A AOK sg tb c a Ht Hc Ha)) as Y. apply rel_iyields, Y.
    + destruct sg; [|constructor]. apply (Forall_imp _ _ _ (C38_ibig_and_signed A AOK tb c a Ht Hc Ha)). intros f. apply rel_iyields.
  - apply (M [_; _; _]), (Forall_imp _ _ _ (C38_ibig_or_primitive A AOK sg tb c a Ht Hc Ha)). intros f. apply rel_iyields.
  - apply (M [_; _; _]), (Forall_imp _ _ _ (C38_ibig_xor_primitive A AOK sg tb c a Ht Hc Ha)). intros f. apply rel_iyields.
  - apply (M [_; _]), (Forall_imp _ _ _ (C38_ibig_and_not_primitive A AOK sg tb c a Ht Hc Ha)). intros f. apply rel_iyields.
  - apply (M [_; _; _]), (Forall_imp _ _ _ (C38_ibig_div_primitive A AOK sg tb c a Ht Hc Ha)). intros f. apply rel_idiv.
  - cbn [iprim_fns]. constructor.
    + pose proof (Forall_inv (C38_ibig_rem_assign_primitive A AOK sg tb c a Ht Hc Ha)) as Y. apply rel_idiv, Y.
    + destruct sg; [constructor|]. apply (Forall_imp _ _ _ (C38_ibig_rem_unsigned A AOK tb c a Ht Hc Ha)). intros f. apply rel_idiv.
  - apply (M [_; _]), (Forall_imp _ _ _ (C38_ibig_div_euclid_primitive A AOK sg tb c a Ht Hc Ha)). intros f. apply rel_idiv.
  - constructor.
Qed.

Lemma rel_pdiv c r z y : (c <> 0 -> y = z) -> pdiv_yields c r y -> r = over c (Ok z).
Proof. intros E [H1 H2]. unfold over. destruct (Z.eqb_spec c 0); [auto|]. rewrite <- (E n). auto. Qed.

Lemma emod_rem a c : 0 <= a -> c <> 0 -> Z.rem a c = emod a c.
Proof.
  intros Pa N. unfold emod. destruct (Z.lt_ge_cases c 0).
  - rewrite Z.abs_neq by lia. rewrite <- Z.rem_opp_r by lia. apply Z.rem_mod_nonneg; lia.
  - rewrite Z.abs_eq by lia. apply Z.rem_mod_nonneg; lia.
Qed.

Lemma uprim_obs_rel sg op tb c a : prim_bits tb -> prim_range sg tb c -> ubig_ok a ->
  Forall (fun f => f tb a c = prim_obs_ideal op (uval a) c) (uprim_obs_fns sg op).
Proof.
  intros Ht Hc Ha. pose proof (uval_nonneg a Ha) as Pa. destruct sg, op; cbn [uprim_obs_fns prim_obs_ideal]; try apply Forall_nil.
  - pose proof (C38_ubig_rem_signed A AOK tb c a Ht Hc Ha) as F.
    apply (Forall_imp (fun f => pdiv_yields c (f tb a c) (Z.rem (uval a) c))).
    + do 2 (constructor; [exact (Forall_inv F)|apply Forall_inv_tail in F]). constructor.
    + intros f. apply rel_pdiv. auto.
  - pose proof (C38_ubig_rem_signed A AOK tb c a Ht Hc Ha) as F. do 2 apply Forall_inv_tail in F.
    apply (Forall_imp _ _ _ F). intros f. apply rel_pdiv. apply emod_rem, Pa.
  - apply (C38_ubig_and_unsigned A AOK tb c a Ht Hc Ha).
  - pose proof (C38_ubig_rem_unsigned A AOK tb c a Ht Hc Ha) as F.
    apply (Forall_imp (fun f => pdiv_yields c (f tb a c) (uval a mod c))).
    + do 2 (constructor; [exact (Forall_inv F)|apply Forall_inv_tail in F]). constructor.
    + intros f. apply rel_pdiv. unfold prim_range in Hc. intros N. apply quot_nonneg; lia.
  - pose proof (C38_ubig_rem_unsigned A AOK tb c a Ht Hc Ha) as F. do 2 apply Forall_inv_tail in F.
    apply (Forall_imp _ _ _ F). intros f. apply rel_pdiv. unfold prim_range in Hc. intros N. unfold emod. rewrite Z.abs_eq by lia. auto.
Qed.

Lemma iprim_obs_rel sg op tb c a : prim_bits tb -> prim_range sg tb c -> ibig_ok a ->
  Forall (fun f => f tb a c = prim_obs_ideal op (ival a) c) (iprim_obs_fns sg op).
Proof.
  intros Ht Hc Ha.
  assert (forall (fns : list (bool -> Z -> ibig -> Z -> res Z)) (z : res Z), Forall (fun f => f sg tb a c = z) fns ->
    Forall (fun f => f tb a c = z) (map (fun f => f sg) fns)) as M.
  { intros fns z F. apply Forall_map. exact F. }
  destruct op; cbn [iprim_obs_fns prim_obs_ideal]; try solve [destruct sg; constructor].
  - destruct sg; [constructor|]. apply (C38_ibig_and_unsigned A AOK tb c a Ht Hc Ha).
  - destruct sg; [|constructor]. apply (Forall_imp _ _ _ (C38_ibig_rem_signed A AOK tb c a Ht Hc Ha)). intros f. apply rel_pdiv. auto.
  - assert (iprim_obs_fns sg PRemE = map (fun f => f sg) [ibig_rem_euclid_primitive; ibig_rem_euclid_ref_primitive]) as E by (destruct sg; reflexivity).
    destruct sg; [change [ibig_rem_euclid_primitive true; ibig_rem_euclid_ref_primitive true] with (iprim_obs_fns true PRemE)
      |change [ibig_rem_euclid_primitive false; ibig_rem_euclid_ref_primitive false] with (iprim_obs_fns false PRemE)]; rewrite E; apply M;
    [apply (Forall_imp _ _ _ (C38_ibig_rem_euclid_primitive A AOK true tb c a Ht Hc Ha))
    |apply (Forall_imp _ _ _ (C38_ibig_rem_euclid_primitive A AOK false tb c a Ht Hc Ha))]; intros f; apply rel_pdiv; auto.
Qed.

(** ** One instruction *)
Definition srel (m : res (state * obs)) (i : res (istate * obs)) : Prop :=
  match i with
  | Panic p => m = Panic p
  | Ok (s, o) => exists st, m = Ok (st, o) /\ holds st s
  end.

Lemma holds_setu st s d u : holds st s -> ubig_ok u -> holds (setu st d u) (mkIstate (setv (uz s) d (uval u)) (iz s)).
Proof.
  intros [H1 H2] Hu. split; cbn; [|exact H2]. intros n. unfold setv. destruct (Nat.eqb_spec n d); [auto|apply H1].
Qed.
Lemma holds_seti st s d x : holds st s -> ibig_ok x -> holds (seti st d x) (mkIstate (uz s) (setv (iz s) d (ival x))).
Proof.
  intros [H1 H2] Hu. split; cbn; [exact H1|]. intros n. unfold setv. destruct (Nat.eqb_spec n d); [auto|apply H2].
Qed.

Lemma putu_rel st s d r z : holds st s -> urel r z -> srel (putu st d r) (iputu s d z).
Proof.
  intros H U. destruct z as [z|p]; cbn in U |- *; [|rewrite U; reflexivity].
  destruct U as (u & -> & Hu & <-). cbn. eexists. split; [reflexivity|]. apply holds_setu; auto.
Qed.
Lemma puti_rel st s d r z : holds st s -> irel r z -> srel (puti st d r) (iputi s d z).
Proof.
  intros H U. destruct z as [z|p]; cbn in U |- *; [|rewrite U; reflexivity].
  destruct U as (u & -> & Hu & <-). cbn. eexists. split; [reflexivity|]. apply holds_seti; auto.
Qed.
Lemma look_rel {T} st s (k : T -> obs) r x : holds st s -> r = Ok x -> srel (look st k r) (Ok (s, k x)).
Proof. intros H ->. exists st. auto. Qed.
Lemma tryu_rel st s d r z : holds st s ->
  (0 <= z -> exists u, r = Ok (Some u) /\ ubig_ok u /\ uval u = z) -> (z < 0 -> r = Ok None) -> srel (tryu st d r) (itryu s d z).
Proof.
  intros H H1 H2. unfold itryu. destruct (Z.leb_spec 0 z).
  - destruct H1 as (u & -> & Hu & <-); [auto|]. cbn. eexists. split; [reflexivity|]. apply holds_setu; auto.
  - rewrite H2 by auto. cbn. eexists. split; [reflexivity|auto].
Qed.

Lemma form_rel {T U} (fns : list T) (gns : list U) k st s F G : holds st s -> length fns = length gns ->
  Forall (fun f => srel (F f) G) fns -> srel (with_form fns k st F) (with_form gns k s (fun _ => G)).
Proof.
  intros H L X. unfold with_form. rewrite Forall_forall in X.
  destruct (nth_error fns k) eqn:E.
  - destruct (nth_error gns k) eqn:E2; [apply X, (nth_error_In _ _ E)|].
    apply nth_error_None in E2. assert (nth_error fns k <> None) as N by congruence. apply nth_error_Some in N. lia.
  - apply nth_error_None in E. assert (nth_error gns k = None) as -> by (apply nth_error_None; lia). exists st. auto.
Qed.

Ltac formp := match goal with |- Forall (fun f => srel _ (iputu _ _ _)) _ =>
    eapply Forall_imp; [|intros f R; apply putu_rel; [eassumption|exact R]]
  | |- Forall (fun f => srel _ (iputi _ _ _)) _ =>
    eapply Forall_imp; [|intros f R; apply puti_rel; [eassumption|exact R]] end.

Lemma in_prim_spec sg tb z r : (prim_range sg tb z -> r = Ok (Some z)) -> (~ prim_range sg tb z -> r = Ok None) -> r = Ok (in_prim sg tb z).
Proof.
  intros H1 H2. unfold prim_range, in_prim in *.
  destruct sg; [destruct (Z.leb_spec (- 2 ^ (tb - 1)) z), (Z.ltb_spec z (2 ^ (tb - 1)))|destruct (Z.leb_spec 0 z), (Z.ltb_spec z (2 ^ tb))];
    cbn [andb]; (apply H1; lia) || (apply H2; lia).
Qed.

Lemma ediv_nonneg a c : 0 <= a -> 0 < c -> ediv a c = a / c /\ emod a c = a mod c.
Proof. intros. unfold ediv, emod. rewrite Z.sgn_pos, Z.abs_eq by lia. split; [lia|auto]. Qed.

Lemma uprim_div_rem_rel (e sg : bool) tb c a : prim_bits tb -> prim_range sg tb c -> ubig_ok a ->
  Forall (fun f => udiv_rem_yields c (f tb a c) (if e then ediv (uval a) c else Z.quot (uval a) c) (if e then emod (uval a) c else Z.rem (uval a) c))
    (uprim_div_rem_fns e sg).
Proof.
  intros Ht Hc Ha. pose proof (uval_nonneg a Ha) as Pa. destruct sg.
  - destruct e; [apply (C38_ubig_div_rem_euclid_signed A AOK tb c a Ht Hc Ha)|apply (C38_ubig_div_rem_signed A AOK tb c a Ht Hc Ha)].
  - pose proof (C38_ubig_div_rem_unsigned A AOK tb c a Ht Hc Ha) as F. unfold prim_range in Hc.
    set (P := fun f : Z -> ubig -> Z -> res (ubig * Z) => _) in F.
    assert (forall f, P f -> udiv_rem_yields c (f tb a c) (if e then ediv (uval a) c else Z.quot (uval a) c) (if e then emod (uval a) c else Z.rem (uval a) c)) as I.
    { intros f [H1 H2]. split; [auto|].
      assert (c <> 0 -> (if e then ediv (uval a) c else Z.quot (uval a) c) = uval a / c /\ (if e then emod (uval a) c else Z.rem (uval a) c) = uval a mod c) as E.
      { intros N. destruct e; [apply ediv_nonneg; lia|]. destruct (quot_nonneg (uval a) c) as [-> ->]; auto; lia. }
      split; intros N; destruct (E N) as [-> ?]; [intros _; rewrite H; auto|]. intros L. pose proof (Z.div_pos (uval a) c). lia. }
    destruct e; cbn [uprim_div_rem_fns].
    + do 2 apply Forall_inv_tail in F. exact (Forall_imp _ _ _ F I).
    + do 2 (constructor; [exact (I _ (Forall_inv F))|apply Forall_inv_tail in F]). constructor.
Qed.

Lemma iprim_div_rem_rel (e sg : bool) tb c a : prim_bits tb -> prim_range sg tb c -> ibig_ok a ->
  Forall (fun f => ipdiv_rem_yields c (f tb a c) (if e then ediv (ival a) c else Z.quot (ival a) c) (if e then emod (ival a) c else Z.rem (ival a) c))
    (iprim_div_rem_fns e sg).
Proof.
  intros Ht Hc Ha. destruct e.
  - pose proof (C38_ibig_div_rem_euclid_primitive A AOK sg tb c a Ht Hc Ha) as F.
    assert (iprim_div_rem_fns true sg = map (fun f => f sg) [ibig_div_rem_euclid_primitive; ibig_div_rem_euclid_ref_primitive]) as -> by (destruct sg; reflexivity).
    apply Forall_map. exact F.
  - destruct sg; [|constructor]. apply (C38_ibig_div_rem_signed A AOK tb c a Ht Hc Ha).
Qed.

Lemma step_sim i st s : holds st s -> instr_ok i ->
  match istep i s with
  | Some r => srel (step i st) r
  | None => exists d n, i = IUClearBit d n /\ wbits <= n /\ 0 < uval (us st d) < B
  end.
Proof.
  intros H I. pose proof H as [HU HI].
  assert (forall n, ubig_ok (us st n)) as OU by (intro; apply HU). assert (forall n, ibig_ok (is st n)) as OI by (intro; apply HI).
  assert (forall n, uz s n = uval (us st n)) as VU by (intro; symmetry; apply HU). assert (forall n, iz s n = ival (is st n)) as VI by (intro; symmetry; apply HI).
  destruct i; cbn [istep step instr_ok] in *; rewrite ?VU, ?VI.
  - apply form_rel; [auto..|]. formp. apply ubin_rel; auto.
  - apply form_rel; [auto..|]. formp. apply uun_rel; auto.
  - apply form_rel; [auto..|]. pose proof (C06_ubig_div_rem_exact A AOK (us st a) (us st b) (OU a) (OU b)) as F.
    apply (Forall_imp _ _ _ F). intros f [D0 D1]. unfold over. destruct (Z.eqb_spec (uval (us st b)) 0); [cbn; rewrite D0 by auto; reflexivity|].
    destruct (D1 n) as (u1 & u2 & -> & O1 & O2 & <- & <-). cbn. eexists. split; [reflexivity|].
    apply (holds_setu (setu st q u1) (mkIstate (setv (uz s) q (uval u1)) (iz s))); [|auto]. apply holds_setu; auto.
  - apply form_rel; [auto..|]. formp. apply (Forall_imp _ _ _ (C13_ubig_shl_exact A AOK (us st a) n (OU a) I)). intros f. apply rel_yields.
  - apply form_rel; [auto..|]. formp. apply (C14_ubig_shr_exact A AOK (us st a) n (OU a)). lia.
  - apply putu_rel; [auto|]. destruct (C17_set_bit A AOK (us st d) n (OU d) I) as (z & Y & E).
    assert (z = Z.lor (uval (us st d)) (2 ^ n)) as <-; [|apply rel_yields, Y].
    apply C16_bits_determine. intros i Hi. rewrite E, Z.lor_spec, Z.pow2_bits_eqb, orb_comm, (Z.eqb_sym n i) by lia. reflexivity.
  - destruct ((wbits <=? n) && (0 <? uval (us st d)) && (uval (us st d) <? B)) eqn:E.
    { apply andb_prop in E as [E E3]. apply andb_prop in E as [E1 E2]. exists d, n. split; [auto|]. lia. }
    apply putu_rel; [auto|]. pose proof (uval_nonneg (us st d) (OU d)).
    destruct (C18_clear_bit_partial A AOK (us st d) n (OU d)) as (v & -> & Ov & V); [lia| |].
    { rewrite !andb_false_iff, Z.leb_gt, !Z.ltb_ge in E. lia. }
    exists v. split; [auto|]. split; [auto|]. apply C16_bits_determine. intros i Hi.
    rewrite V, Z.ldiff_spec, Z.pow2_bits_eqb, andb_comm, (Z.eqb_sym n i) by lia. reflexivity.
  - apply putu_rel; [auto|]. apply rel_yields, C25_ubig_pow; auto.
  - apply putu_rel; [auto|]. apply (C40_clone_from A AOK (us st d) (us st a) (is st d) (is st d)); auto.
  - apply putu_rel; [auto|]. destruct I as [I1 I2]. apply (proj1 (C21_from_primitive A AOK tb x I1)), I2.
  - destruct I as [I1 I2]. destruct (proj2 (C21_from_primitive A AOK tb x I1) I2) as (_ & E1 & E2). apply tryu_rel; auto.
  - apply putu_rel; [auto|]. unfold bytes_ideal.
    destruct be; [destruct (C20_from_be_bytes A AOK bs I) as [E1 E2]|destruct (C20_from_le_bytes A AOK bs I) as [E1 E2]];
      (destruct (Z.leb_spec (8 * Z.of_nat (length bs)) (wbits * (MAX_LEN + 4))); [apply rel_yields; auto|cbn; auto]).
  - destruct (C21_ubig_from_ibig A AOK (is st a) (OI a)) as [E1 E2]. apply tryu_rel; [auto| |].
    + intros P. destruct (E1 P) as ((u & E & Hu) & _). exists u. rewrite E. auto.
    + intros P. destruct (E2 P) as [-> _]. auto.
  - destruct (C21_ubig_from_ibig A AOK (is st a) (OI a)) as [E1 E2]. apply tryu_rel; [auto| |].
    + intros P. destruct (E1 P) as (_ & E). exact E.
    + intros P. destruct (E2 P) as [_ ->]. auto.
  - destruct (C41_sign_ops A AOK (is st a) Positive (OI a)) as (_ & _ & _ & _ & U1 & U2 & _).
    apply form_rel; [auto..|]. formp. constructor; [|constructor; [|constructor]]; auto.
  - destruct I as [I1 I2]. apply form_rel; [auto..|]. formp. apply uprim_rel; auto.
  - destruct I as [I1 I2]. apply form_rel; [auto..|]. eapply Forall_imp; [apply (uprim_obs_rel sg op tb x (us st a) I1 I2 (OU a))|].
    intros f ->. destruct (prim_obs_ideal _ _ _); cbn; [exists st; auto|auto].
  - destruct I as [I1 I2]. apply form_rel; [auto..|]. eapply Forall_imp; [apply (uprim_div_rem_rel euclid sg tb x (us st a) I1 I2 (OU a))|].
    intros f (D0 & D1 & D2). unfold over, natural. destruct (Z.eqb_spec x 0); [rewrite D0 by auto; reflexivity|].
    destruct (Z.ltb_spec (if euclid then ediv (uval (us st a)) x else uval (us st a) ÷ x) 0); [rewrite D2 by auto; reflexivity|].
    destruct D1 as (u & -> & Hu & E); [auto..|]. cbn. rewrite <- E. eexists. split; [reflexivity|]. apply holds_setu; auto.
  - apply form_rel; [auto..|]. formp. apply ibin_rel; auto.
  - apply form_rel; [auto..|]. formp. apply iun_rel; auto.
  - apply form_rel; [auto..|].
    assert (Forall (fun f => idiv_rem_yields (ival (is st b)) (f (is st a) (is st b))
       (if euclid then ediv (ival (is st a)) (ival (is st b)) else ival (is st a) ÷ ival (is st b))
       (if euclid then emod (ival (is st a)) (ival (is st b)) else Z.rem (ival (is st a)) (ival (is st b)))) (idiv_rem_fns euclid)) as F.
    { destruct euclid; [apply (C10_ibig_div_rem_euclid_exact A AOK (is st a) (is st b))|apply (C09_ibig_div_rem_exact A AOK (is st a) (is st b))]; auto. }
    apply (Forall_imp _ _ _ F). intros f [D0 D1]. unfold over. destruct (Z.eqb_spec (ival (is st b)) 0); [cbn; rewrite D0 by auto; reflexivity|].
    destruct (D1 n) as (u1 & u2 & -> & O1 & O2 & E1 & E2). cbn.
    replace (if euclid then _ else _) with (iseti2 s q r (ival u1) (ival u2)) by (rewrite E1, E2; destruct euclid; reflexivity).
    eexists. split; [reflexivity|].
    apply (holds_seti (seti st q u1) (mkIstate (uz s) (setv (iz s) q (ival u1)))); [|auto]. apply holds_seti; auto.
  - apply form_rel; [auto..|]. formp. apply (Forall_imp _ _ _ (C13_ibig_shl_exact A AOK (is st a) n (OI a) I)). intros f. apply rel_iyields.
  - apply form_rel; [auto..|]. formp. apply (C14_ibig_shr_exact A AOK (is st a) n (OI a)). lia.
  - apply puti_rel; [auto|]. apply rel_iyields, C25_ibig_pow; auto.
  - apply puti_rel; [auto|]. apply (C40_clone_from A AOK (us st d) (us st a) (is st d) (is st a)); auto.
  - apply puti_rel; [auto|]. destruct I as [I1 I2]. destruct sg.
    + apply (proj2 (C21_from_primitive A AOK tb x I1) I2).
    + apply (proj1 (C21_from_primitive A AOK tb x I1) I2).
  - apply puti_rel; [auto|]. apply (C21_ibig_from_ubig A AOK (us st a) (OU a)).
  - apply puti_rel; [auto|]. apply (C21_ibig_from_ubig A AOK (us st a) (OU a)).
  - destruct I as [I1 I2]. apply form_rel; [auto..|]. formp. apply iprim_rel; auto.
  - destruct I as [I1 I2]. apply form_rel; [auto..|]. eapply Forall_imp; [apply (iprim_obs_rel sg op tb x (is st a) I1 I2 (OI a))|].
    intros f ->. destruct (prim_obs_ideal _ _ _); cbn; [exists st; auto|auto].
  - destruct I as [I1 I2]. apply form_rel; [auto..|]. eapply Forall_imp; [apply (iprim_div_rem_rel euclid sg tb x (is st a) I1 I2 (OI a))|].
    intros f (D0 & D1). unfold over. destruct (Z.eqb_spec x 0); [rewrite D0 by auto; reflexivity|].
    destruct D1 as (u & -> & Hu & E); [auto..|]. cbn. rewrite <- E. eexists. split; [reflexivity|]. apply holds_seti; auto.
  - destruct I as [I1 I2]. apply form_rel; [auto..|]. apply (Forall_imp _ _ _ (C38_ibig_div_rem_unsigned A AOK tb x (is st a) I1 I2 (OI a))).
    intros f (D0 & D1). unfold over. destruct (Z.eqb_spec x 0); [rewrite D0 by auto; reflexivity|].
    destruct (D1 n) as (u1 & u2 & -> & O1 & O2 & <- & <-). cbn. eexists. split; [reflexivity|].
    apply (holds_seti (seti st q u1) (mkIstate (uz s) (setv (iz s) q (ival u1)))); [|auto]. apply holds_seti; auto.
  - apply (look_rel st s OOrd); [auto|]. apply C12_ubig_cmp; auto.
  - apply (look_rel st s OBool); [auto|]. f_equal. pose proof (ubig_eqb_spec (us st a) (us st b) (OU a) (OU b)) as E.
    apply eq_true_iff_eq. rewrite Z.eqb_eq. exact E.
  - apply (look_rel st s OBool); [auto|]. apply C17_bit; auto. lia.
  - apply (look_rel st s OOpt); [auto|]. destruct (C19_ubig_trailing_zeros A AOK (us st a) (OU a)). apply itz_spec; auto.
  - apply (look_rel st s ONum); [auto|]. destruct (C19_bit_len A AOK (us st a) (OU a)) as (k & -> & K). f_equal.
    apply ibitlen_spec; try apply K. apply uval_nonneg; auto.
  - apply (look_rel st s OBool); [auto|]. destruct (C19_is_power_of_two A AOK (us st a) (OU a)) as (k & -> & K). f_equal.
    apply pow2_test; [apply uval_nonneg; auto|exact K].
  - apply (look_rel st s OBytes); [auto|]. destruct (C20_to_bytes A AOK (us st a) (OU a)) as (bs & E1 & E2 & D & V & L).
    rewrite <- (ibytes_spec (uval (us st a)) bs (uval_nonneg _ (OU a)) D V L). destruct be; auto.
  - apply (look_rel st s OOpt); [auto|]. destruct (C21_ubig_to_primitive A AOK tb (us st a) I (OU a)) as (E1 & E2 & E3 & E4).
    destruct sg; apply in_prim_spec; auto.
  - apply (look_rel st s OOrd); [auto|]. apply C12_ibig_cmp; auto.
  - apply (look_rel st s OBool); [auto|]. f_equal. pose proof (ibig_eqb_spec (is st a) (is st b) (OI a) (OI b)) as E.
    apply eq_true_iff_eq. rewrite Z.eqb_eq. exact E.
  - apply (look_rel st s OOpt); [auto|]. destruct (C19_ibig_trailing_zeros A AOK (is st a) (OI a)). apply itz_spec; auto.
  - apply (look_rel st s OOpt); [auto|]. destruct (C21_ibig_to_primitive A AOK tb (is st a) I (OI a)) as (E1 & E2 & E3 & E4).
    destruct sg; apply in_prim_spec; auto.
Qed.

(** ** Whole programs *)
Lemma run_sim n c : client_ok c -> forall tr st s, holds st s ->
  match irun n c tr s with
  | Some (Ok (tr', s')) => exists st', run n c tr st = Ok (tr', st') /\ holds st' s'
  | Some (Panic p) => run n c tr st = Panic p
  | None => True
  end.
Proof.
  intros C. induction n as [|n IH]; intros tr st s H; [exists st; auto|].
  cbn [irun run]. destruct (c tr) as [i|] eqn:E; [|exists st; auto].
  pose proof (step_sim i st s H (C tr i E)) as S. destruct (istep i s) as [[[s' o]|p]|]; [| |exact I].
  - destruct S as (st' & -> & H'). cbn [bind]. apply IH, H'.
  - cbn in S. rewrite S. reflexivity.
Qed.

Lemma irun_no_clear n c : (forall tr d k, c tr = Some (IUClearBit d k) -> k < wbits) -> forall tr s, irun n c tr s <> None.
Proof.
  intros C. induction n as [|n IH]; intros tr s; [discriminate|].
  cbn [irun]. destruct (c tr) as [i|] eqn:E; [|discriminate].
  destruct (istep i s) as [[[s' o]|p]|] eqn:X; [apply IH|discriminate|].
  destruct i; cbn [istep] in X; try discriminate X. specialize (C _ _ _ E).
  rewrite (proj2 (Z.leb_gt _ _)) in X by lia. discriminate X.
Qed.

Lemma istep_no_internal i s : istep i s <> Some (Panic Internal).
Proof.
  intros E.
  assert (forall X Y (l : list X) k (s : Y) (r : res (Y * obs)), r <> Panic Internal -> with_form l k s (fun _ => r) <> Panic Internal) as W.
  { intros X Y l k y r N. unfold with_form. destruct (nth_error l k); [exact N|discriminate]. }
  assert (forall d r, r <> Panic Internal -> iputu s d r <> Panic Internal) as PU.
  { intros d [z|p] N; cbn; [discriminate|congruence]. }
  assert (forall d r, r <> Panic Internal -> iputi s d r <> Panic Internal) as PI.
  { intros d [z|p] N; cbn; [discriminate|congruence]. }
  assert (forall T d (r : res T), r <> Panic Internal -> over d r <> Panic Internal) as O.
  { intros T d r N. unfold over. destruct (d =? 0); [discriminate|exact N]. }
  assert (forall z, fits z <> Panic Internal) as F by (intros z; unfold fits; destruct (_ <? _); discriminate).
  assert (forall z, ifits z <> Panic Internal) as FI by (intros z; unfold ifits; destruct (_ <? _); discriminate).
  assert (forall z, natural z <> Panic Internal) as NA by (intros z; unfold natural; destruct (_ <? _); discriminate).
  assert (forall z, fits_nat z <> Panic Internal) as FN by (intros z; unfold fits_nat; destruct (_ <? _); [discriminate|apply F]).
  assert (forall z, fits_unsigned z <> Panic Internal) as FU by (intros z; unfold fits_unsigned; destruct (_ <? _); [destruct (_ <? _); discriminate|apply F]).
  assert (forall op a c, prim_obs_ideal op a c <> Panic Internal) as PO.
  { intros op a c. destruct op; cbn; try discriminate; apply O; discriminate. }
  destruct i; cbn [istep] in E; try discriminate E; try (destruct (_ && _); [discriminate E|]);
    injection E; clear E; try apply W; try apply PU; try apply PI; try apply O; try apply F; try apply FI; try discriminate.
  - destruct op; cbn; try apply O; auto; try discriminate. destruct (_ && _); discriminate.
  - destruct op; cbn; auto; discriminate.
  - unfold itryu. destruct (0 <=? _); discriminate.
  - unfold bytes_ideal. destruct (_ <=? _); [apply F|discriminate].
  - unfold itryu. destruct (0 <=? _); discriminate.
  - unfold itryu. destruct (0 <=? _); discriminate.
  - destruct op; cbn; try apply O; try (destruct sg); auto; discriminate.
  - specialize (PO op (uz s a) x). destruct (prim_obs_ideal _ _ _); cbn; [discriminate|congruence].
  - set (z := if euclid then _ else _). specialize (NA z). destruct (natural z); cbn; [discriminate|congruence].
  - destruct op; cbn; try apply O; auto; try discriminate. destruct (_ && _); discriminate.
  - destruct op; cbn; auto; discriminate.
  - destruct op; cbn; try apply O; auto; discriminate.
  - specialize (PO op (iz s a) x). destruct (prim_obs_ideal _ _ _); cbn; [discriminate|congruence].
Qed.

Lemma run_safe n c : client_ok c -> forall tr st, well_formed st ->
  match run n c tr st with
  | Ok (_, st') => well_formed st'
  | Panic p => p <> Internal
  end.
Proof.
  intros C. induction n as [|n IH]; intros tr st W; [exact W|].
  cbn [run]. destruct (c tr) as [i|] eqn:E; [|exact W].
  set (s := mkIstate (fun n => uval (us st n)) (fun n => ival (is st n))).
  assert (holds st s) as H by (split; intro; split; [apply W|reflexivity|apply W|reflexivity]).
  pose proof (step_sim i st s H (C tr i E)) as S. destruct (istep i s) as [[[s' o]|p]|] eqn:X.
  - destruct S as (st' & -> & H'). cbn [bind]. apply IH. split; intro; apply H'.
  - cbn in S. rewrite S. cbn [bind]. intros ->. exact (istep_no_internal i s X).
  - destruct S as (d & k & -> & K1 & K2). cbn [step]. rewrite (C18_clear_bit_wrong A AOK (us st d) k) by (auto; apply W). cbn [putu bind].
    apply IH. split; [|apply W]. intros m. cbn. unfold setv. destruct (m =? d)%nat; [|apply W]. cbn. pose proof (B_ge). lia.
Qed.

Lemma start_ok : well_formed start.
Proof. pose proof B_ge. split; intros k; [cbn; lia|]. split; [cbn; lia|auto]. Qed.

Lemma run_compact n c tr tr' st' : client_ok c -> run n c tr start = Ok (tr', st') ->
  (forall k, compact (us st' k)) /\ (forall k, compact (imag (is st' k))).
Proof.
  intros C E.
  pose proof (run_safe n c C tr start start_ok) as R. rewrite E in R. destruct R as [R1 R2].
  assert (forall u, ubig_ok u -> compact u) as OC.
  { intros [w|b]; cbn [ubig_ok compact]; [auto|]. intros (_ & _ & _ & L & K). unfold max_cap in K. lia. }
  split; intros k; apply OC; [apply R1|apply R2].
Qed.

Lemma run_no_internal n c tr st : client_ok c -> well_formed st -> run n c tr st <> Panic Internal.
Proof. intros C W E. pose proof (run_safe n c C tr st W) as R. rewrite E in R. auto. Qed.

Lemma run_start_no_internal n c tr : client_ok c -> run n c tr start <> Panic Internal.
Proof. intros C. apply run_no_internal; [exact C|apply start_ok]. Qed.
End ProgramProofs.
