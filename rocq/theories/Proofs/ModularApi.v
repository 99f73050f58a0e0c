(** The public operations on modular numbers. *)
From Verif Require Import Model.Base Model.Words Model.FastDivide Model.Buffer Model.UBig Model.IBig Model.Convert Model.DivOps Model.PrimOps
  Model.Gcd Model.Modular Spec.Val Spec.Num Spec.Prim Spec.Modular
  Proofs.Basics Proofs.FastDivideProofs Proofs.BufferProofs Proofs.ConvertProofs Proofs.DivOpsProofs Proofs.ApiProofs
  Proofs.GcdApi Proofs.ModularProofs Proofs.ModularRoom.
From Coq Require Import Lia Znumtheory.

Section ModularApi.
Context {A : Arch} {AOK : ArchOk A}.

(** ** Elements by representation *)

Lemma element_small r n x a : element (RingSmall r) n x a -> rs_ok r n /\ exists raw, x = MSmall (mkModuloSmall r raw) /\ raw_of r n raw a.
Proof.
  intros (Hr & Ha & S). split; [apply is_ring_small; auto|]. destruct x as [m|m]; [|destruct S]. destruct m as [r' raw], S as [E1 E2].
  cbn in E1, E2. subst r'. exists raw. split; [reflexivity|]. split; auto.
Qed.

Lemma element_large r n x a : element (RingLarge r) n x a -> rl_ok r n /\ exists ws, x = MLarge (mkModuloLarge r ws) /\ large_of r n ws a.
Proof.
  intros (Hr & Ha & S). split; [apply is_ring_large; auto|]. destruct x as [m|m]; [destruct S|]. destruct m as [r' ws], S as (E1 & E2 & E3 & E4).
  cbn in E1, E2, E3, E4. subst r'. exists ws. split; [reflexivity|]. split; auto.
Qed.

Lemma small_element r n raw a : is_ring (RingSmall r) n -> raw_of r n raw a -> element (RingSmall r) n (MSmall (mkModuloSmall r raw)) a.
Proof. intros Hr [E Ha]. split; [auto|]. split; [auto|]. split; auto. Qed.
Lemma large_element r n ws a : is_ring (RingLarge r) n -> large_of r n ws a -> element (RingLarge r) n (MLarge (mkModuloLarge r ws)) a.
Proof. intros Hr (H1 & H2 & H3 & H4). split; [auto|]. split; [auto|]. split; auto. Qed.

Lemma element_ring r n x a : element r n x a -> is_ring r n.
Proof. intros H. apply H. Qed.

(** ** Rings *)

Theorem ring_modulus_spec r n : is_ring r n -> returns (ring_modulus r) n.
Proof.
  intros Hr. destruct r as [r|r]; cbn [ring_modulus].
  - apply is_ring_small in Hr as R. destruct R as (Hn & Hs & EM & _). exists (from_word (ring_small_modulus r)). split; [reflexivity|].
    unfold ring_small_modulus, shr_w. rewrite Z.shiftr_div_pow2, EM, Z.div_mul by lia. split; [cbn; lia|reflexivity].
  - apply is_ring_large in Hr as R. pose proof R as (Hn & Hs & EM & _ & _ & HL & WM). unfold ring_large_modulus.
    apply (denormalize_spec r n R); auto. pose proof (len_nonneg (rl_modulus r)). lia.
Qed.

Theorem residue_spec r n x a : element r n x a -> returns (residue x) a.
Proof.
  intros H. destruct r as [r|r].
  - apply element_small in H as (R & raw & -> & H). cbn [residue]. unfold small_residue. cbn [ms_raw ms_ring].
    rewrite (raw_of_residue r n R raw a H). cbn [bind]. exists (from_word a). split; [reflexivity|]. destruct H as [_ H]. destruct R as [R _]. split; [cbn; lia|reflexivity].
  - apply element_large in H as (R & ws & -> & H). cbn [residue]. unfold large_residue. cbn [ml_value ml_ring].
    pose proof R as (Hn & Hs & EM & _ & _ & HL & WM). destruct H as (W & L & V & H). apply (denormalize_spec r n R); auto. unfold len in *. lia.
Qed.

(** ** Conversions *)

Theorem ubig_into_modulo_spec r n u : is_ring r n -> ubig_ok u ->
  (ring_room r (uval u) -> yields_mod r n (ubig_into_modulo u r) (uval u) /\ yields_mod r n (ubig_ref_into_modulo u r) (uval u)) /\
  (~ ring_room r (uval u) -> ubig_into_modulo u r = Panic NumberTooLarge /\ ubig_ref_into_modulo u r = Panic NumberTooLarge).
Proof.
  intros Hr Hu. destruct r as [r|r]; cbn [ring_room ubig_into_modulo ubig_ref_into_modulo].
  - split; [|tauto]. intros _. assert (K : yields_mod (RingSmall r) n (m <- small_from_ubig u r;; Ok (MSmall m)) (uval u)); [|split; exact K].
    apply is_ring_small in Hr as R. unfold small_from_ubig. destruct u as [w|b]; cbn [uval].
    + destruct (raw_from_word_spec r n R w Hu) as (raw & -> & H). cbn [bind]. rewrite (small_new_spec r n R raw _ H). cbn [bind].
      eexists. split; [reflexivity|]. apply small_element; auto.
    + destruct (raw_from_large_spec r n R (words b)) as (raw & -> & H); [apply Hu|]. cbn [bind]. rewrite (small_new_spec r n R raw _ H). cbn [bind].
      eexists. split; [reflexivity|]. apply small_element; auto.
  - apply is_ring_large in Hr as R. destruct (large_from_ubig_spec r n R u Hu) as [F1 F2].
    destruct (ubig_clone_spec u Hu) as (u' & -> & Hu' & Vu). cbn [bind].
    destruct (large_from_ubig_spec r n R u' Hu') as [F3 F4]. rewrite Vu in F3, F4. split; intros H.
    + destruct (F1 H) as (ws & -> & H1). destruct (F3 H) as (ws' & -> & H2). cbn [bind].
      split; (eexists; split; [reflexivity|]); apply large_element; auto.
    + assert (H' : MAXV <= uval u * 2 ^ rl_shift r) by lia. rewrite (F2 H'), (F4 H'). split; reflexivity.
Qed.

Lemma negate_spec r n x a : element r n x a -> exists y, mod_neg_v x = Ok y /\ element r n y ((- a) mod n).
Proof.
  intros H. pose proof (element_ring _ _ _ _ H) as Hr. destruct r as [r|r].
  - apply element_small in H as (R & raw & -> & H). cbn [mod_neg_v]. unfold small_negate_in_place. cbn [ms_raw ms_ring].
    destruct (raw_negate_spec r n R raw a H) as (raw' & -> & H'). cbn [bind]. unfold set_raw. cbn [ms_ring]. rewrite check_true by (eapply raw_valid; eauto). cbn [bind].
    eexists. split; [reflexivity|]. apply small_element; auto.
  - apply element_large in H as (R & ws & -> & H). cbn [mod_neg_v]. destruct (large_negate_spec r n R ws a H) as (ws' & -> & H'). cbn [bind].
    eexists. split; [reflexivity|]. apply large_element; auto.
Qed.

Lemma mod_clone_eq x : mod_clone x = x.
Proof. destruct x as [m|[r v]]; reflexivity. Qed.
Lemma mod_clone_from_eq x y : mod_clone_from x y = y.
Proof. destruct x as [m|m], y as [k|[r v]]; cbn; try reflexivity. destruct (_ =? _)%nat; reflexivity. Qed.

Theorem neg_spec r n x a : element r n x a -> yields_mod r n (mod_neg_v x) (- a) /\ yields_mod r n (mod_neg_r x) (- a).
Proof. intros H. unfold mod_neg_r. rewrite mod_clone_eq. split; apply negate_spec; auto. Qed.

Lemma neg_mod_neg z n : n <> 0 -> (- (z mod n)) mod n = (- z) mod n.
Proof. intros H. rewrite <- !Z.sub_0_l. apply Zminus_mod_idemp_r. Qed.

Theorem ibig_into_modulo_spec r n x : is_ring r n -> ibig_ok x ->
  (ring_room r (Z.abs (ival x)) -> yields_mod r n (ibig_into_modulo x r) (ival x) /\ yields_mod r n (ibig_ref_into_modulo x r) (ival x)) /\
  (~ ring_room r (Z.abs (ival x)) -> ibig_into_modulo x r = Panic NumberTooLarge /\ ibig_ref_into_modulo x r = Panic NumberTooLarge).
Proof.
  intros Hr [Hm Hz]. pose proof (uval_nonneg _ Hm). assert (Z.abs (ival x) = uval (imag x)) as ->. { unfold ival. destruct (isign x); cbn [sign_val]; lia. }
  destruct (ubig_into_modulo_spec r n (imag x) Hr Hm) as [U1 U2]. unfold ibig_into_modulo, ibig_ref_into_modulo. pose proof (is_ring_pos r n Hr) as Hn. split; intros Hroom.
  - destruct (U1 Hroom) as [(m & -> & E1) (m' & -> & E2)]. cbn [bind]. unfold ival. destruct (isign x); cbn [sign_val].
    + rewrite Z.mul_1_l. split; eexists; (split; [reflexivity|assumption]).
    + destruct (negate_spec _ _ _ _ E1) as (y & -> & N1). destruct (negate_spec _ _ _ _ E2) as (y' & -> & N2). rewrite neg_mod_neg in N1, N2 by lia.
      replace (-1 * uval (imag x)) with (- uval (imag x)) by lia. split; eexists; (split; [reflexivity|assumption]).
  - destruct (U2 Hroom) as [-> ->]. split; reflexivity.
Qed.

(** Primitive integers always fit. *)
Lemma prim_room r n z : is_ring r n -> 0 <= z < 2 ^ 128 -> ring_room r z.
Proof.
  intros Hr Hz. destruct r as [r|r]; cbn [ring_room]; [exact I|]. apply is_ring_large in Hr. destruct Hr as (_ & Hs & _).
  pose proof MAX_LEN_ge as ML. pose proof wbits_cases as WC. pose proof (Z.pow_pos_nonneg 2 (rl_shift r) ltac:(lia) ltac:(lia)).
  apply Z.lt_le_trans with (2 ^ 128 * 2 ^ rl_shift r); [nia|]. rewrite <- Z.pow_add_r by lia. unfold MAXV. apply Z.pow_le_mono_r; [lia|].
  destruct WC as [W|[W|W]]; rewrite W in *; lia.
Qed.

Theorem unsigned_into_modulo_spec r n tb z : is_ring r n -> prim_bits tb -> 0 <= z < 2 ^ tb -> yields_mod r n (unsigned_into_modulo tb z r) z.
Proof.
  intros Hr Ht Hz. unfold unsigned_into_modulo. destruct (ubig_from_unsigned_spec tb z Ht Hz) as (u & -> & Hu & V). cbn [bind].
  destruct (ubig_into_modulo_spec r n u Hr Hu) as [U _]. rewrite V in U. apply U. apply (prim_room r n); auto.
  assert (2 ^ tb <= 2 ^ 128) by (apply Z.pow_le_mono_r; [lia|]; pose proof ubits_ge; unfold prim_bits in Ht; lia). lia.
Qed.

Theorem signed_into_modulo_spec r n tb z : is_ring r n -> prim_bits tb -> - 2 ^ (tb - 1) <= z < 2 ^ (tb - 1) -> yields_mod r n (signed_into_modulo tb z r) z.
Proof.
  intros Hr Ht Hz. unfold signed_into_modulo. destruct (ibig_from_signed_spec tb z Ht Hz) as (u & -> & Hu & V). cbn [bind].
  destruct (ibig_into_modulo_spec r n u Hr Hu) as [U _]. rewrite V in U. apply U. apply (prim_room r n); auto.
  assert (2 ^ (tb - 1) < 2 ^ 128) by (apply Z.pow_lt_mono_r; [lia|lia|]; pose proof ubits_ge; unfold prim_bits in Ht; lia). lia.
Qed.

Theorem bool_into_modulo_spec r n b : is_ring r n -> yields_mod r n (bool_into_modulo b r) (Z.b2z b).
Proof.
  intros Hr. unfold bool_into_modulo. destruct (from_bool_spec b) as (u & -> & Hu & V). cbn [bind].
  destruct (ubig_into_modulo_spec r n u Hr Hu) as [U _]. rewrite V in U. apply U. apply (prim_room r n); auto. destruct b; cbn; lia.
Qed.

(** ** Addition, subtraction, multiplication *)

Lemma small_same r x y : small_check_same_ring (mkModuloSmall r x) (mkModuloSmall r y) = Ok tt.
Proof. unfold small_check_same_ring. cbn [ms_ring]. rewrite Z.eqb_refl. reflexivity. Qed.
Lemma large_same r x y : large_check_same_ring (mkModuloLarge r x) (mkModuloLarge r y) = Ok tt.
Proof. unfold large_check_same_ring. cbn [ml_ring]. rewrite Z.eqb_refl. reflexivity. Qed.

Lemma set_raw_spec r n raw raw' a : rs_ok r n -> raw_of r n raw' a -> set_raw (mkModuloSmall r raw) raw' = Ok (mkModuloSmall r raw').
Proof. intros R H. unfold set_raw. cbn [ms_ring]. rewrite check_true by (eapply raw_valid; eauto). reflexivity. Qed.

Lemma add_assign_spec r n x a y b : element r n x a -> element r n y b -> yields_mod r n (mod_add_assign_r x y) (a + b).
Proof.
  intros Hx Hy. pose proof (element_ring _ _ _ _ Hx) as Hr. destruct r as [r|r].
  - apply element_small in Hx as (R & rx & -> & Hx). apply element_small in Hy as (_ & ry & -> & Hy). cbn [mod_add_assign_r]. unfold small_add_in_place.
    rewrite small_same. cbn [bind ms_raw ms_ring]. destruct (raw_add_spec r n R _ _ _ _ Hx Hy) as (raw & -> & H). cbn [bind]. rewrite (set_raw_spec r n _ _ _ R H).
    eexists. split; [reflexivity|]. apply small_element; auto.
  - apply element_large in Hx as (R & rx & -> & Hx). apply element_large in Hy as (_ & ry & -> & Hy). cbn [mod_add_assign_r].
    destruct (large_add_spec r n R rx a ry b r Hx Hy eq_refl) as (v & -> & H). eexists. split; [reflexivity|]. apply large_element; auto.
Qed.

Theorem add_spec r n x a y b : element r n x a -> element r n y b ->
  yields_mod r n (mod_add_vv x y) (a + b) /\ yields_mod r n (mod_add_vr x y) (a + b) /\ yields_mod r n (mod_add_rv x y) (a + b) /\
  yields_mod r n (mod_add_rr x y) (a + b) /\ yields_mod r n (mod_add_assign_v x y) (a + b) /\ yields_mod r n (mod_add_assign_r x y) (a + b).
Proof.
  intros Hx Hy. unfold mod_add_vv, mod_add_rv, mod_add_rr, mod_add_vr, mod_add_assign_v. rewrite mod_clone_eq.
  pose proof (add_assign_spec _ _ _ _ _ _ Hx Hy) as H1. pose proof (add_assign_spec _ _ _ _ _ _ Hy Hx) as H2. rewrite Z.add_comm in H2. auto 10.
Qed.

Lemma sub_assign_spec r n x a y b : element r n x a -> element r n y b -> yields_mod r n (mod_sub_assign_r x y) (a - b) /\ yields_mod r n (mod_sub_rv x y) (a - b).
Proof.
  intros Hx Hy. pose proof (element_ring _ _ _ _ Hx) as Hr. destruct r as [r|r].
  - apply element_small in Hx as (R & rx & -> & Hx). apply element_small in Hy as (_ & ry & -> & Hy). cbn [mod_sub_assign_r mod_sub_rv].
    unfold small_sub_in_place, small_sub_in_place_swap.
    rewrite small_same. cbn [bind ms_raw ms_ring]. destruct (raw_sub_spec r n R _ _ _ _ Hx Hy) as (raw & -> & H). cbn [bind]. rewrite !(set_raw_spec r n _ _ _ R H).
    split; (eexists; split; [reflexivity|]; apply small_element; auto).
  - apply element_large in Hx as (R & rx & -> & Hx). apply element_large in Hy as (_ & ry & -> & Hy). cbn [mod_sub_assign_r mod_sub_rv].
    destruct (large_sub_spec r n R rx a ry b r Hx Hy eq_refl) as (v & -> & H). destruct (large_sub_swap_spec r n R rx a ry b r Hx Hy eq_refl) as (v' & -> & H').
    split; (eexists; split; [reflexivity|]; apply large_element; auto).
Qed.

Theorem sub_spec r n x a y b : element r n x a -> element r n y b ->
  yields_mod r n (mod_sub_vv x y) (a - b) /\ yields_mod r n (mod_sub_vr x y) (a - b) /\ yields_mod r n (mod_sub_rv x y) (a - b) /\
  yields_mod r n (mod_sub_rr x y) (a - b) /\ yields_mod r n (mod_sub_assign_v x y) (a - b) /\ yields_mod r n (mod_sub_assign_r x y) (a - b).
Proof.
  intros Hx Hy. unfold mod_sub_vv, mod_sub_rr, mod_sub_vr, mod_sub_assign_v. rewrite mod_clone_eq.
  destruct (sub_assign_spec _ _ _ _ _ _ Hx Hy) as [H1 H2]. auto 10.
Qed.

Lemma mul_assign_spec r n x a y b : element r n x a -> element r n y b -> yields_mod_if (room_for_mul n) r n (mod_mul_assign_r x y) (a * b).
Proof.
  intros Hx Hy. pose proof (element_ring _ _ _ _ Hx) as Hr. destruct r as [r|r].
  - apply element_small in Hx as (R & rx & -> & Hx). apply element_small in Hy as (_ & ry & -> & Hy).
    assert (room_for_mul n = true) as ->. { unfold room_for_mul. destruct R as [R _]. rewrite (proj2 (Z.ltb_lt _ _)) by lia. reflexivity. }
    cbn [yields_mod_if mod_mul_assign_r]. unfold small_mul_in_place.
    rewrite small_same. cbn [bind ms_raw ms_ring]. destruct (raw_mul_spec r n R _ _ _ _ Hx Hy) as (raw & -> & H). cbn [bind]. rewrite (set_raw_spec r n _ _ _ R H).
    eexists. split; [reflexivity|]. apply small_element; auto.
  - apply element_large in Hx as (R & rx & -> & Hx). apply element_large in Hy as (_ & ry & -> & Hy). cbn [mod_mul_assign_r]. rewrite large_same. cbn [bind ml_ring].
    pose proof (mul_room r n R) as M. destruct (room_for_mul n); cbn [yields_mod_if]; [|rewrite M; reflexivity].
    destruct M as (l & -> & Em). cbn [bind]. rewrite Em. cbn [bind]. unfold large_mul_in_place. cbn [ml_value].
    destruct (mul_normalized_in_place_spec r n R rx a ry b _ Hx Hy (Z.le_refl _)) as (v & -> & H). eexists. split; [reflexivity|]. apply large_element; auto.
Qed.

Theorem mul_spec r n x a y b : element r n x a -> element r n y b -> let ok m := yields_mod_if (room_for_mul n) r n m (a * b) in
  ok (mod_mul_vv x y) /\ ok (mod_mul_vr x y) /\ ok (mod_mul_rv x y) /\ ok (mod_mul_rr x y) /\ ok (mod_mul_assign_v x y) /\ ok (mod_mul_assign_r x y).
Proof.
  intros Hx Hy. unfold mod_mul_vv, mod_mul_rv, mod_mul_rr, mod_mul_vr, mod_mul_assign_v. rewrite mod_clone_eq. cbv zeta.
  pose proof (mul_assign_spec _ _ _ _ _ _ Hx Hy) as H1. pose proof (mul_assign_spec _ _ _ _ _ _ Hy Hx) as H2. rewrite Z.mul_comm in H2. auto 10.
Qed.

Theorem eq_spec r n x a y b : element r n x a -> element r n y b -> modulo_eq x y = Ok (a =? b).
Proof.
  intros Hx Hy. destruct r as [r|r].
  - apply element_small in Hx as (R & rx & -> & Hx). apply element_small in Hy as (_ & ry & -> & Hy). cbn [modulo_eq]. rewrite small_same. cbn [bind ms_raw].
    pose proof (pow_s r n R). destruct Hx as [-> _], Hy as [-> _]. f_equal. destruct (Z.eqb_spec a b) as [->|N]; [apply Z.eqb_refl|]. apply Z.eqb_neq. nia.
  - apply element_large in Hx as (R & rx & -> & Hx). apply element_large in Hy as (_ & ry & -> & Hy). cbn [modulo_eq]. rewrite large_same. cbn [bind ml_value].
    pose proof (pow_sl r n R). destruct Hx as (W1 & L1 & V1 & _), Hy as (W2 & L2 & V2 & _). f_equal. apply Bool.eq_iff_eq_true. rewrite words_eqb_spec, Z.eqb_eq.
    split; intros E; [subst; nia|]. subst b. apply val_inj; auto; congruence.
Qed.

(** ** Inverse *)

Lemma one_small : ubig_ok (from_word 1) /\ uval (from_word 1) = 1.
Proof. pose proof B_ge. split; cbn; lia. Qed.

Lemma wbits_prim : prim_bits wbits.
Proof. pose proof wbits_cases. unfold prim_bits. lia. Qed.

Lemma bezout_inv a n x y : 1 <= n -> a * x + n * y = 1 -> (a * (x mod n)) mod n = 1 mod n.
Proof.
  intros Hn E. rewrite Zmult_mod_idemp_r. replace (a * x) with (1 + (- y) * n) by lia. apply Z_mod_plus_full.
Qed.

Theorem inverse_spec r n x a : element r n x a ->
  match inverse x with
  | Ok (Some y) => Z.gcd a n = 1 /\ exists b, element r n y b /\ (a * b) mod n = 1 mod n
  | Ok None => Z.gcd a n <> 1
  | Panic p => p = NumberTooLarge /\ MAXV <= 2 * n
  end.
Proof.
  intros H. pose proof (element_ring _ _ _ _ H) as Hr. pose proof (is_ring_pos r n Hr) as Hn. destruct one_small as [O1 O2]. destruct r as [r|r].
  - apply element_small in H as (R & raw & -> & H). cbn [inverse]. unfold small_inverse, small_residue. cbn [ms_raw ms_ring].
    rewrite (raw_of_residue r n R raw a H). cbn [bind]. pose proof R as (HnB & Hs & EM & _). destruct H as [_ Ha].
    assert (ring_small_modulus r = n) as ->. { unfold ring_small_modulus, shr_w. rewrite Z.shiftr_div_pow2, EM, Z.div_mul by lia. reflexivity. }
    assert (HB : 2 ^ wbits = B) by reflexivity. pose proof B_MAXV as BM. pose proof B_ge as HB2.
    destruct (ubig_from_unsigned_spec wbits a wbits_prim ltac:(lia)) as (ua & -> & Hua & Va). cbn [bind].
    destruct (ubig_from_unsigned_spec wbits n wbits_prim ltac:(lia)) as (ub & -> & Hub & Vb). cbn [bind].
    pose proof (ubig_extended_gcd_all ua ub Hua Hub) as G. rewrite Va, Vb in G.
    destruct (ubig_extended_gcd ua ub) as [[[g u] v]|p]; [|exfalso; destruct G as [(_ & _ & G)|[_ G]]; [lia|specialize (G 0 ltac:(lia) (Z.divide_1_l _) (Z.divide_1_l _)); nia]].
    destruct G as (Hg & Hu & Hv & _ & Gg & Gb & _). cbn [bind].
    pose proof (ubig_eqb_spec g (from_word 1) Hg O1) as Q. rewrite O2, Gg in Q. destruct (ubig_eqb g (from_word 1)).
    + assert (G1 : Z.gcd a n = 1) by (apply Q; reflexivity).
      destruct (ibig_from_unsigned_spec wbits n wbits_prim ltac:(lia)) as (ib & -> & Hib & Vi). cbn [bind].
      destruct (ibig_rem_euclid_vv_yields u ib Hu Hib) as [_ E]. rewrite Vi in E. destruct (E ltac:(lia)) as (re & -> & Hre & Vre). cbn [bind].
      unfold emod in Vre. rewrite Z.abs_eq in Vre by lia. pose proof (Z.mod_pos_bound (ival u) n ltac:(lia)) as MB.
      rewrite (ibig_try_to_unsigned_spec wbits re wbits_prim Hre). cbn [bind]. rewrite Vre.
      rewrite (proj2 (Z.leb_le _ _)), (proj2 (Z.ltb_lt _ _)) by lia. cbn [andb unwrap bind].
      destruct (raw_from_word_spec r n R (ival u mod n)) as (raw' & -> & H'); [lia|]. cbn [bind]. rewrite (small_new_spec r n R raw' _ H'). cbn [bind option_map].
      split; [exact G1|]. exists ((ival u mod n) mod n). split; [apply small_element; auto|].
      rewrite Z.mod_mod by lia. apply (bezout_inv a n (ival u) (ival v)); lia.
    + cbn [bind option_map]. intros C. apply Q in C. discriminate.
  - pose proof (residue_spec _ _ _ _ H) as RS. apply element_large in H as (R & ws & -> & H). cbn [inverse residue] in *. unfold large_inverse. cbn [ml_ring].
    destruct RS as (ua & -> & Hua & Va). cbn [bind].
    destruct (ring_modulus_spec (RingLarge r) n Hr) as (ub & E & Hub & Vb). cbn [ring_modulus] in E. rewrite E. cbn [bind].
    pose proof (ubig_extended_gcd_all ua ub Hua Hub) as G. rewrite Va, Vb in G. pose proof R as (HnB & Hs & EM & N & HL & HL2 & WM). destruct H as (_ & _ & _ & Ha).
    destruct (ubig_extended_gcd ua ub) as [[[g u] v]|p]; [|destruct G as [(_ & _ & G)|[-> G]]; [lia|cbn [bind]; split; [reflexivity|specialize (G 0 ltac:(lia) (Z.divide_1_l _) (Z.divide_1_l _)); lia]]].
    destruct G as (Hg & Hu & Hv & _ & Gg & Gb & _). cbn [bind].
    pose proof (ubig_eqb_spec g (from_word 1) Hg O1) as Q. rewrite O2, Gg in Q. destruct (ubig_eqb g (from_word 1)).
    + assert (G1 : Z.gcd a n = 1) by (apply Q; reflexivity). destruct (ibig_from_ubig_spec ub Hub) as [Hib Vi].
      destruct (ibig_rem_euclid_vv_yields u (ibig_from_ubig ub) Hu Hib) as [_ E2]. rewrite Vi, Vb in E2. destruct (E2 ltac:(lia)) as (re & -> & Hre & Vre). cbn [bind].
      unfold emod in Vre. rewrite Z.abs_eq in Vre by lia. pose proof (Z.mod_pos_bound (ival u) n ltac:(lia)) as MB.
      destruct (try_from_ibig_spec re Hre) as [T _]. destruct (T ltac:(lia)) as (w & -> & Hw & Vw). cbn [unwrap bind].
      destruct (large_from_ubig_spec r n R w Hw) as [F _]. destruct F as (ws' & -> & H').
      { rewrite Vw, Vre. pose proof (pow_sl r n R). pose proof (val_bound _ WM) as VM. pose proof (proj1 (Bn_MAXV_le (length (rl_modulus r))) HL2). rewrite EM in VM. nia. }
      cbn [bind option_map]. split; [exact G1|]. exists (uval w mod n). split; [apply large_element; auto|].
      rewrite Vw, Vre, Z.mod_mod by lia. apply (bezout_inv a n (ival u) (ival v)); lia.
    + cbn [bind option_map]. intros C. apply Q in C. discriminate.
Qed.

End ModularApi.
