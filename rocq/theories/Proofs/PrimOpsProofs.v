(** Operators between big numbers and primitive integers. *)
From Verif Require Import Model.Base Model.Words Model.Buffer Model.UBig Model.IBig Model.Convert Model.AddOps Model.MulOps
  Model.Bits Model.DivOps Model.PrimOps Spec.Val Spec.Num Spec.Prim Proofs.Basics Proofs.BufferProofs Proofs.AddOpsProofs
  Proofs.ConvertProofs Proofs.MulOpsProofs Proofs.BitsProofs Proofs.DivOpsProofs.
From Coq Require Import Lia.

Section PrimOpsProofs.
Context {A : Arch} {AOK : ArchOk A}.

Lemma unwrap_ok tb r z : prim_bits tb -> 0 <= z < 2 ^ tb -> ubig_ok r -> uval r = z ->
  (o <- ubig_try_to_unsigned tb r ;; unwrap o) = Ok z.
Proof.
  intros Ht Hz Hr E. rewrite ubig_try_to_unsigned_spec by auto. cbn [bind]. rewrite E, (proj2 (Z.ltb_lt _ _)) by lia. reflexivity.
Qed.

Lemma land_range tb a x : 8 <= tb -> 0 <= x < 2 ^ tb -> 0 <= Z.land a x < 2 ^ tb.
Proof.
  intros Ht Hx. split; [apply Z.land_nonneg; lia|].
  assert (x = Z.land x (Z.ones tb)) as E by (rewrite Z.land_ones by lia; symmetry; apply Z.mod_small; lia).
  rewrite E, Z.land_assoc, Z.land_ones by lia. apply Z.mod_pos_bound. lia.
Qed.

Lemma unwrap_land tb u x r : prim_bits tb -> 0 <= x < 2 ^ tb -> yields r (Z.land u x) ->
  (r <- r ;; o <- ubig_try_to_unsigned tb r ;; unwrap o) = Ok (Z.land u x).
Proof.
  intros Ht Hx [Y _]. pose proof (land_range tb u x ltac:(pose proof (prim_bits_ge tb Ht); lia) Hx).
  pose proof (prim_lt_MAXV tb Ht). destruct Y as (v & -> & Hv & E); [lia|]. cbn [bind]. apply unwrap_ok; auto.
Qed.

Lemma iunwrap_land tb y x r : prim_bits tb -> 0 <= x < 2 ^ tb -> iyields r (Z.land y x) ->
  (r <- r ;; o <- ibig_try_to_unsigned tb r ;; unwrap o) = Ok (Z.land y x).
Proof.
  intros Ht Hx [Y _]. pose proof (land_range tb y x ltac:(pose proof (prim_bits_ge tb Ht); lia) Hx).
  pose proof (prim_lt_MAXV tb Ht). destruct Y as (v & -> & Hv & E); [lia|]. cbn [bind].
  rewrite ibig_try_to_unsigned_spec by auto. cbn [bind]. rewrite E.
  rewrite (proj2 (Z.leb_le _ _)), (proj2 (Z.ltb_lt _ _)) by lia. reflexivity.
Qed.

Lemma unwrap_rem tb u x r : prim_bits tb -> 0 <= x < 2 ^ tb -> div_yields x r (u mod x) ->
  pdiv_yields x (r <- r ;; o <- ubig_try_to_unsigned tb r ;; unwrap o) (u mod x).
Proof.
  intros Ht Hx [Y1 Y2]. split; intros N.
  - rewrite Y1 by auto. reflexivity.
  - destruct (Y2 N) as (v & -> & Hv & E). cbn [bind]. pose proof (Z.mod_pos_bound u x). apply unwrap_ok; auto. lia.
Qed.

Lemma unwrap_rem_signed tb u x r : prim_bits tb -> - 2 ^ (tb - 1) <= x < 2 ^ (tb - 1) -> 0 <= u ->
  pdiv_yields (Z.abs x) r (u mod Z.abs x) ->
  pdiv_yields x (r <- r ;; unwrap (try_from_sign_magnitude tb Positive r)) (Z.rem u x).
Proof.
  intros Ht Hx Hu [Y1 Y2]. split; intros N.
  - rewrite Y1 by lia. reflexivity.
  - rewrite Y2 by lia. cbn [bind try_from_sign_magnitude]. unfold unsigned_to_signed.
    assert (u mod Z.abs x = Z.rem u x) as E.
    { rewrite <- Z.rem_mod_nonneg by lia. destruct (Z.abs_eq_or_opp x) as [-> | ->]; [auto|apply Z.rem_opp_r; lia]. }
    pose proof (Z.mod_pos_bound u (Z.abs x)). rewrite (proj2 (Z.ltb_lt _ _)) by lia. cbn [unwrap]. rewrite E. reflexivity.
Qed.

Lemma from_ibig_spec y : ibig_ok y ->
  (0 <= ival y -> from_ibig_panic_on_overflow y = Ok (imag y) /\ uval (imag y) = ival y) /\ (ival y < 0 -> from_ibig_panic_on_overflow y = Panic NegativeUBig).
Proof.
  intros Hy. destruct (isign_val y Hy) as [P1 P2]. unfold from_ibig_panic_on_overflow, ubig_try_from_ibig, ival in *.
  destruct (isign y); cbn [sign_val] in *.
  - split; [intros _; split; [reflexivity|lia]|]. specialize (P1 eq_refl). lia.
  - split; [|intros; reflexivity]. specialize (P2 eq_refl). lia.
Qed.

Lemma to_ubig_unsigned r z : iyields r z -> yields_unsigned (r <- r ;; from_ibig_panic_on_overflow r) z.
Proof.
  intros [Y1 Y2]. split; [|split].
  - intros Hz. split; intros H.
    + destruct Y1 as (x & -> & Hx & E); [lia|]. cbn [bind]. destruct (from_ibig_spec x Hx) as [P _].
      destruct P as [P1 P2]; [lia|]. exists (imag x). split; [auto|]. split; [apply Hx|lia].
    + rewrite Y2 by lia. reflexivity.
  - intros Hz H. destruct Y1 as (x & -> & Hx & E); [lia|]. cbn [bind]. apply from_ibig_spec; auto. lia.
  - intros Hz H. rewrite Y2 by lia. reflexivity.
Qed.

Lemma to_ubig_yields r z : iyields r z -> 0 <= z -> yields (r <- r ;; from_ibig_panic_on_overflow r) z.
Proof. intros Y Hz. apply to_ubig_unsigned; auto. Qed.

Lemma to_ubig_div d r z : idiv_yields d r z -> udiv_yields d (r <- r ;; from_ibig_panic_on_overflow r) z.
Proof.
  intros [Y1 Y2]. split; [|split].
  - intros N. rewrite Y1 by auto. reflexivity.
  - intros N Hz. destruct (Y2 N) as (x & -> & Hx & E). cbn [bind]. destruct (from_ibig_spec x Hx) as [P _].
    destruct P as [P1 P2]; [lia|]. exists (imag x). split; [auto|]. split; [apply Hx|lia].
  - intros N Hz. destruct (Y2 N) as (x & -> & Hx & E). cbn [bind]. apply from_ibig_spec; auto. lia.
Qed.

Lemma to_ubig_div_nonneg d r z : idiv_yields d r z -> (d <> 0 -> 0 <= z) ->
  div_yields d (r <- r ;; from_ibig_panic_on_overflow r) z.
Proof. intros Y Hz. destruct (to_ubig_div d r z Y) as (P1 & P2 & _). split; auto. Qed.

Lemma pow_lt_half tb d z : - 2 ^ (tb - 1) <= d < 2 ^ (tb - 1) -> Z.abs z < Z.abs d -> - 2 ^ (tb - 1) <= z < 2 ^ (tb - 1).
Proof. lia. Qed.

Lemma to_ubig_div_rem tb d r z1 z2 : prim_bits tb -> - 2 ^ (tb - 1) <= d < 2 ^ (tb - 1) -> idiv_rem_yields d r z1 z2 ->
  (d <> 0 -> Z.abs z2 < Z.abs d) ->
  udiv_rem_yields d ('(q, r) <- r ;; q <- from_ibig_panic_on_overflow q ;; o <- ibig_try_to_signed tb r ;; r <- unwrap o ;; Ok (q, r)) z1 z2.
Proof.
  intros Ht Hd [Y1 Y2] Hr. split; [|split].
  - intros N. rewrite Y1 by auto. reflexivity.
  - intros N Hz. destruct (Y2 N) as (x1 & x2 & -> & Hx & H2 & E & E2). cbn [bind]. destruct (from_ibig_spec x1 Hx) as [P _].
    destruct P as [P1 P2]; [lia|]. rewrite P1. cbn [bind]. rewrite ibig_try_to_signed_spec by auto. cbn [bind]. rewrite E2.
    pose proof (pow_lt_half tb d z2 Hd (Hr N)).
    rewrite (proj2 (Z.leb_le _ _)), (proj2 (Z.ltb_lt _ _)) by lia. cbn [andb unwrap bind]. eexists; split; [reflexivity|].
    split; [apply Hx|lia].
  - intros N Hz. destruct (Y2 N) as (x1 & x2 & -> & Hx & H2 & E & E2). cbn [bind]. rewrite (proj2 (from_ibig_spec x1 Hx)) by lia. reflexivity.
Qed.

Lemma rem_abs_bound a b : b <> 0 -> Z.abs (Z.rem a b) < Z.abs b.
Proof. apply Z.rem_bound_abs. Qed.
Lemma emod_abs_bound a b : b <> 0 -> Z.abs (emod a b) < Z.abs b.
Proof. intros N. destruct (ediv_spec a b N). lia. Qed.

Lemma ibig_from_ubig_ref_spec u : ubig_ok u -> exists i, ibig_from_ubig_ref u = Ok i /\ ibig_ok i /\ ival i = uval u.
Proof.
  intros Hu. unfold ibig_from_ubig_ref. destruct (ubig_clone_spec u Hu) as (v & -> & Hv & E). cbn [bind].
  destruct (ibig_from_ubig_spec v Hv) as [H1 H2]. eexists; split; [reflexivity|]. split; [auto|lia].
Qed.

Lemma ibig_from_prim_spec sg tb x : prim_bits tb -> prim_range sg tb x ->
  exists u, ibig_from_prim sg tb x = Ok u /\ ibig_ok u /\ ival u = x.
Proof. intros Ht Hx. destruct sg; [apply ibig_from_signed_spec|apply ibig_from_unsigned_spec]; auto. Qed.

Lemma prim_try_from_spec sg tb x : prim_bits tb -> ibig_ok x -> prim_range sg tb (ival x) ->
  prim_try_from_ibig sg tb x = Ok (Some (ival x)).
Proof.
  intros Ht Hx Hr. destruct sg; cbn [prim_try_from_ibig prim_range] in *.
  - rewrite ibig_try_to_signed_spec by auto. rewrite (proj2 (Z.leb_le _ _)), (proj2 (Z.ltb_lt _ _)) by lia. reflexivity.
  - rewrite ibig_try_to_unsigned_spec by auto. rewrite (proj2 (Z.leb_le _ _)), (proj2 (Z.ltb_lt _ _)) by lia. reflexivity.
Qed.

Lemma unwrap_prim_rem sg tb d r z : prim_bits tb -> idiv_yields d r z -> (d <> 0 -> prim_range sg tb z) ->
  pdiv_yields d (r <- r ;; o <- prim_try_from_ibig sg tb r ;; unwrap o) z.
Proof.
  intros Ht [Y1 Y2] Hr. split; intros N.
  - rewrite Y1 by auto. reflexivity.
  - destruct (Y2 N) as (x & -> & Hx & <-). cbn [bind]. rewrite prim_try_from_spec by auto. reflexivity.
Qed.
Lemma unwrap_prim_div_rem sg tb d r z1 z2 : prim_bits tb -> idiv_rem_yields d r z1 z2 -> (d <> 0 -> prim_range sg tb z2) ->
  ipdiv_rem_yields d ('(q, r) <- r ;; o <- prim_try_from_ibig sg tb r ;; r <- unwrap o ;; Ok (q, r)) z1 z2.
Proof.
  intros Ht [Y1 Y2] Hr. split; intros N.
  - rewrite Y1 by auto. reflexivity.
  - destruct (Y2 N) as (x & x2 & -> & Hx & Hx2 & E1 & <-). cbn [bind]. rewrite prim_try_from_spec by auto. cbn [bind unwrap]. eauto.
Qed.

Lemma emod_range sg tb a x : prim_range sg tb x -> x <> 0 -> prim_range sg tb (emod a x).
Proof. intros Hx N. destruct (ediv_spec a x N). destruct sg; cbn [prim_range] in *; lia. Qed.
Lemma rem_range tb a x : - 2 ^ (tb - 1) <= x < 2 ^ (tb - 1) -> x <> 0 -> prim_range true tb (Z.rem a x).
Proof. intros Hx N. pose proof (rem_abs_bound a x N). cbn [prim_range]. lia. Qed.

(** * UBig with an unsigned primitive *)
Section UU.
Variables (tb x : Z) (u : ubig).
Hypothesis Ht : prim_bits tb.
Hypothesis Hx : 0 <= x < 2 ^ tb.
Hypothesis Hu : ubig_ok u.

Ltac fu := destruct (ubig_from_unsigned_spec tb x Ht Hx) as (p & Ep & Hp & Vp); rewrite Ep; cbn [bind]; rewrite <- ?Vp.

Lemma ubig_add_unsigned_yields : yields (ubig_add_unsigned tb u x) ((uval u) + x).
Proof. unfold ubig_add_unsigned. fu. apply ubig_add_vv_yields; auto. Qed.

Lemma ubig_add_ref_unsigned_yields : yields (ubig_add_ref_unsigned tb u x) ((uval u) + x).
Proof. unfold ubig_add_ref_unsigned. fu. apply ubig_add_rv_yields; auto. Qed.

Lemma ubig_add_assign_unsigned_yields : yields (ubig_add_assign_unsigned tb u x) ((uval u) + x).
Proof. unfold ubig_add_assign_unsigned. fu. apply ubig_add_vv_yields; auto. Qed.

Lemma ubig_sub_unsigned_yields : yields_nat (ubig_sub_unsigned tb u x) ((uval u) - x).
Proof. unfold ubig_sub_unsigned. fu. apply ubig_sub_vv_yields; auto. Qed.

Lemma ubig_sub_ref_unsigned_yields : yields_nat (ubig_sub_ref_unsigned tb u x) ((uval u) - x).
Proof. unfold ubig_sub_ref_unsigned. fu. apply ubig_sub_rv_yields; auto. Qed.

Lemma ubig_sub_assign_unsigned_yields : yields_nat (ubig_sub_assign_unsigned tb u x) ((uval u) - x).
Proof. unfold ubig_sub_assign_unsigned. fu. apply ubig_sub_vv_yields; auto. Qed.

Lemma ubig_mul_unsigned_yields : yields (ubig_mul_unsigned tb u x) ((uval u) * x).
Proof. unfold ubig_mul_unsigned. fu. apply ubig_mul_vv_yields; auto. Qed.

Lemma ubig_mul_ref_unsigned_yields : yields (ubig_mul_ref_unsigned tb u x) ((uval u) * x).
Proof. unfold ubig_mul_ref_unsigned. fu. apply ubig_mul_rv_yields; auto. Qed.

Lemma ubig_mul_assign_unsigned_yields : yields (ubig_mul_assign_unsigned tb u x) ((uval u) * x).
Proof. unfold ubig_mul_assign_unsigned. fu. apply ubig_mul_vv_yields; auto. Qed.

Lemma ubig_and_unsigned_spec : ubig_and_unsigned tb u x = Ok (Z.land (uval u) x).
Proof.
  unfold ubig_and_unsigned. fu. apply unwrap_land; auto; [lia|]. apply ubig_and_vv_yields; auto.
Qed.

Lemma ubig_and_ref_unsigned_spec : ubig_and_ref_unsigned tb u x = Ok (Z.land (uval u) x).
Proof.
  unfold ubig_and_ref_unsigned. fu. apply unwrap_land; auto; [lia|]. apply ubig_and_rv_yields; auto.
Qed.

Lemma ubig_and_assign_unsigned_yields : yields (ubig_and_assign_unsigned tb u x) (Z.land (uval u) x).
Proof. unfold ubig_and_assign_unsigned. fu. apply ubig_and_vv_yields; auto. Qed.

Lemma ubig_or_unsigned_yields : yields (ubig_or_unsigned tb u x) (Z.lor (uval u) x).
Proof. unfold ubig_or_unsigned. fu. apply ubig_or_vv_yields; auto. Qed.

Lemma ubig_or_ref_unsigned_yields : yields (ubig_or_ref_unsigned tb u x) (Z.lor (uval u) x).
Proof. unfold ubig_or_ref_unsigned. fu. apply ubig_or_rv_yields; auto. Qed.

Lemma ubig_or_assign_unsigned_yields : yields (ubig_or_assign_unsigned tb u x) (Z.lor (uval u) x).
Proof. unfold ubig_or_assign_unsigned. fu. apply ubig_or_vv_yields; auto. Qed.

Lemma ubig_xor_unsigned_yields : yields (ubig_xor_unsigned tb u x) (Z.lxor (uval u) x).
Proof. unfold ubig_xor_unsigned. fu. apply ubig_xor_vv_yields; auto. Qed.

Lemma ubig_xor_ref_unsigned_yields : yields (ubig_xor_ref_unsigned tb u x) (Z.lxor (uval u) x).
Proof. unfold ubig_xor_ref_unsigned. fu. apply ubig_xor_rv_yields; auto. Qed.

Lemma ubig_xor_assign_unsigned_yields : yields (ubig_xor_assign_unsigned tb u x) (Z.lxor (uval u) x).
Proof. unfold ubig_xor_assign_unsigned. fu. apply ubig_xor_vv_yields; auto. Qed.

Lemma ubig_and_not_unsigned_yields : yields (ubig_and_not_unsigned tb u x) (Z.ldiff (uval u) x).
Proof. unfold ubig_and_not_unsigned. fu. apply ubig_and_not_vv_yields; auto. Qed.

Lemma ubig_and_not_ref_unsigned_yields : yields (ubig_and_not_ref_unsigned tb u x) (Z.ldiff (uval u) x).
Proof. unfold ubig_and_not_ref_unsigned. fu. apply ubig_and_not_rv_yields; auto. Qed.

Lemma ubig_div_unsigned_yields : div_yields x (ubig_div_unsigned tb u x) (uval u / x).
Proof. unfold ubig_div_unsigned. fu. apply ubig_div_vv_yields; auto. Qed.

Lemma ubig_div_ref_unsigned_yields : div_yields x (ubig_div_ref_unsigned tb u x) (uval u / x).
Proof. unfold ubig_div_ref_unsigned. fu. apply ubig_div_rv_yields; auto. Qed.

Lemma ubig_div_assign_unsigned_yields : div_yields x (ubig_div_assign_unsigned tb u x) (uval u / x).
Proof. unfold ubig_div_assign_unsigned. fu. apply ubig_div_vv_yields; auto. Qed.

Lemma ubig_rem_unsigned_spec : pdiv_yields x (ubig_rem_unsigned tb u x) (uval u mod x).
Proof.
  unfold ubig_rem_unsigned. fu. apply unwrap_rem; auto; [lia|]. apply ubig_rem_vv_yields; auto.
Qed.

Lemma ubig_rem_ref_unsigned_spec : pdiv_yields x (ubig_rem_ref_unsigned tb u x) (uval u mod x).
Proof.
  unfold ubig_rem_ref_unsigned. fu. apply unwrap_rem; auto; [lia|]. apply ubig_rem_rv_yields; auto.
Qed.

Lemma ubig_rem_assign_unsigned_yields : div_yields x (ubig_rem_assign_unsigned tb u x) (uval u mod x).
Proof. unfold ubig_rem_assign_unsigned. fu. apply ubig_rem_vv_yields; auto. Qed.

Lemma ubig_div_rem_unsigned_spec : x <> 0 -> exists q, ubig_div_rem_unsigned tb u x = Ok (q, uval u mod x) /\ ubig_ok q /\ uval q = uval u / x.
Proof.
  intros Nx. unfold ubig_div_rem_unsigned. fu.
  destruct (ubig_div_rem_vv_yields u p Hu Hp) as [_ Y]. destruct Y as (q & r & -> & Hq & Hr & Eq & Er); [lia|]. cbn [bind].
  rewrite ubig_try_to_unsigned_spec by auto. cbn [bind]. rewrite Er.
  pose proof (Z.mod_pos_bound (uval u) (uval p)).
  rewrite (proj2 (Z.ltb_lt _ _)) by lia. cbn [unwrap bind]. eauto.
Qed.
Lemma ubig_div_rem_unsigned_zero : x = 0 -> ubig_div_rem_unsigned tb u x = Panic DivideByZero.
Proof.
  intros Nx. unfold ubig_div_rem_unsigned. fu. rewrite (proj1 (ubig_div_rem_vv_yields u p Hu Hp)) by lia. reflexivity.
Qed.

Lemma ubig_div_rem_ref_unsigned_spec : x <> 0 -> exists q, ubig_div_rem_ref_unsigned tb u x = Ok (q, uval u mod x) /\ ubig_ok q /\ uval q = uval u / x.
Proof.
  intros Nx. unfold ubig_div_rem_ref_unsigned. fu.
  destruct (ubig_div_rem_rv_yields u p Hu Hp) as [_ Y]. destruct Y as (q & r & -> & Hq & Hr & Eq & Er); [lia|]. cbn [bind].
  rewrite ubig_try_to_unsigned_spec by auto. cbn [bind]. rewrite Er.
  pose proof (Z.mod_pos_bound (uval u) (uval p)).
  rewrite (proj2 (Z.ltb_lt _ _)) by lia. cbn [unwrap bind]. eauto.
Qed.
Lemma ubig_div_rem_ref_unsigned_zero : x = 0 -> ubig_div_rem_ref_unsigned tb u x = Panic DivideByZero.
Proof.
  intros Nx. unfold ubig_div_rem_ref_unsigned. fu. rewrite (proj1 (ubig_div_rem_rv_yields u p Hu Hp)) by lia. reflexivity.
Qed.

End UU.

(** * UBig with a signed primitive *)
Section US.
Variables (tb x : Z) (u : ubig).
Hypothesis Ht : prim_bits tb.
Hypothesis Hx : - 2 ^ (tb - 1) <= x < 2 ^ (tb - 1).
Hypothesis Hu : ubig_ok u.

Ltac fs := destruct (ibig_from_signed_spec tb x Ht Hx) as (p & Ep & Hp & Vp); rewrite Ep; cbn [bind]; rewrite <- ?Vp.
Ltac fsi := destruct (ibig_from_ubig_spec u Hu) as [Hi Vi]; fs; rewrite <- ?Vi.
Ltac fsr := destruct (ibig_from_ubig_ref_spec u Hu) as (i & Ei & Hi & Vi); rewrite Ei; cbn [bind]; fs; rewrite <- ?Vi.

Lemma ubig_add_signed_yields : yields_unsigned (ubig_add_signed tb u x) ((uval u) + x).
Proof. unfold ubig_add_signed. fsi. apply to_ubig_unsigned, ibig_add_vv_yields; auto. Qed.

Lemma ubig_add_ref_signed_yields : yields_unsigned (ubig_add_ref_signed tb u x) ((uval u) + x).
Proof. unfold ubig_add_ref_signed. fsr. apply to_ubig_unsigned, ibig_add_vv_yields; auto. Qed.

Lemma ubig_add_assign_signed_yields : yields_unsigned (ubig_add_assign_signed tb u x) ((uval u) + x).
Proof. exact ubig_add_signed_yields. Qed.

Lemma ubig_sub_signed_yields : yields_unsigned (ubig_sub_signed tb u x) ((uval u) - x).
Proof. unfold ubig_sub_signed. fsi. apply to_ubig_unsigned, ibig_sub_vv_yields; auto. Qed.

Lemma ubig_sub_ref_signed_yields : yields_unsigned (ubig_sub_ref_signed tb u x) ((uval u) - x).
Proof. unfold ubig_sub_ref_signed. fsr. apply to_ubig_unsigned, ibig_sub_vv_yields; auto. Qed.

Lemma ubig_sub_assign_signed_yields : yields_unsigned (ubig_sub_assign_signed tb u x) ((uval u) - x).
Proof. exact ubig_sub_signed_yields. Qed.

Lemma ubig_mul_signed_yields : yields_unsigned (ubig_mul_signed tb u x) ((uval u) * x).
Proof. unfold ubig_mul_signed. fsi. apply to_ubig_unsigned, ibig_mul_vv_yields; auto. Qed.

Lemma ubig_mul_ref_signed_yields : yields_unsigned (ubig_mul_ref_signed tb u x) ((uval u) * x).
Proof. unfold ubig_mul_ref_signed. fsr. apply to_ubig_unsigned, ibig_mul_vv_yields; auto. Qed.

Lemma ubig_mul_assign_signed_yields : yields_unsigned (ubig_mul_assign_signed tb u x) ((uval u) * x).
Proof. exact ubig_mul_signed_yields. Qed.

Lemma ubig_and_signed_yields : yields (ubig_and_signed tb u x) (Z.land (uval u) x).
Proof.
  unfold ubig_and_signed. fsi. apply to_ubig_yields; [apply ibig_and_vv_yields; auto|].
  apply Z.land_nonneg. left. rewrite Vi. apply uval_nonneg; auto.
Qed.

Lemma ubig_and_ref_signed_yields : yields (ubig_and_ref_signed tb u x) (Z.land (uval u) x).
Proof.
  unfold ubig_and_ref_signed. fs. unfold ival at 1. destruct (isign p) eqn:Es.
  - cbn [sign_val]. rewrite Z.mul_1_l. apply ubig_and_rv_yields; auto. apply Hp.
  - rewrite <- Es. fold (ival p). destruct (ibig_from_ubig_ref_spec u Hu) as (i & -> & Hi & Vi). cbn [bind]. rewrite <- Vi.
    apply to_ubig_yields; [apply ibig_and_vv_yields; auto|]. apply Z.land_nonneg. left. rewrite Vi. apply uval_nonneg; auto.
Qed.

Lemma ubig_and_assign_signed_yields : yields (ubig_and_assign_signed tb u x) (Z.land (uval u) x).
Proof. exact ubig_and_signed_yields. Qed.

Lemma ubig_or_signed_yields : yields_unsigned (ubig_or_signed tb u x) (Z.lor (uval u) x).
Proof. unfold ubig_or_signed. fsi. apply to_ubig_unsigned, ibig_or_vv_yields; auto. Qed.

Lemma ubig_or_ref_signed_yields : yields_unsigned (ubig_or_ref_signed tb u x) (Z.lor (uval u) x).
Proof. unfold ubig_or_ref_signed. fsr. apply to_ubig_unsigned, ibig_or_vv_yields; auto. Qed.

Lemma ubig_or_assign_signed_yields : yields_unsigned (ubig_or_assign_signed tb u x) (Z.lor (uval u) x).
Proof. exact ubig_or_signed_yields. Qed.

Lemma ubig_xor_signed_yields : yields_unsigned (ubig_xor_signed tb u x) (Z.lxor (uval u) x).
Proof. unfold ubig_xor_signed. fsi. apply to_ubig_unsigned, ibig_xor_vv_yields; auto. Qed.

Lemma ubig_xor_ref_signed_yields : yields_unsigned (ubig_xor_ref_signed tb u x) (Z.lxor (uval u) x).
Proof. unfold ubig_xor_ref_signed. fsr. apply to_ubig_unsigned, ibig_xor_vv_yields; auto. Qed.

Lemma ubig_xor_assign_signed_yields : yields_unsigned (ubig_xor_assign_signed tb u x) (Z.lxor (uval u) x).
Proof. exact ubig_xor_signed_yields. Qed.

Lemma ubig_and_not_signed_yields : yields (ubig_and_not_signed tb u x) (Z.ldiff (uval u) x).
Proof.
  unfold ubig_and_not_signed. fsi. apply to_ubig_yields; [apply ibig_and_not_vv_yields; auto|].
  apply Z.ldiff_nonneg. left. rewrite Vi. apply uval_nonneg; auto.
Qed.

Lemma ubig_and_not_ref_signed_yields : yields (ubig_and_not_ref_signed tb u x) (Z.ldiff (uval u) x).
Proof.
  unfold ubig_and_not_ref_signed. fsr. apply to_ubig_yields; [apply ibig_and_not_vv_yields; auto|].
  apply Z.ldiff_nonneg. left. rewrite Vi. apply uval_nonneg; auto.
Qed.

Lemma ubig_div_signed_yields : udiv_yields x (ubig_div_signed tb u x) (Z.quot (uval u) x).
Proof. unfold ubig_div_signed. fsi. apply to_ubig_div, ibig_div_vv_yields; auto. Qed.

Lemma ubig_div_ref_signed_yields : udiv_yields x (ubig_div_ref_signed tb u x) (Z.quot (uval u) x).
Proof. unfold ubig_div_ref_signed. fsr. apply to_ubig_div, ibig_div_vv_yields; auto. Qed.

Lemma ubig_div_assign_signed_yields : udiv_yields x (ubig_div_assign_signed tb u x) (Z.quot (uval u) x).
Proof. exact ubig_div_signed_yields. Qed.

Lemma ubig_div_euclid_signed_yields : udiv_yields x (ubig_div_euclid_signed tb u x) (ediv (uval u) x).
Proof. unfold ubig_div_euclid_signed. fsi. apply to_ubig_div, ibig_div_euclid_vv_yields; auto. Qed.

Lemma ubig_div_euclid_ref_signed_yields : udiv_yields x (ubig_div_euclid_ref_signed tb u x) (ediv (uval u) x).
Proof. unfold ubig_div_euclid_ref_signed. fsr. apply to_ubig_div, ibig_div_euclid_vv_yields; auto. Qed.

Lemma ubig_rem_signed_spec : pdiv_yields x (ubig_rem_signed tb u x) (Z.rem (uval u) x).
Proof.
  unfold ubig_rem_signed. destruct (to_sign_magnitude_spec tb x Ht Hx) as [-> Ha].
  apply unwrap_rem_signed; auto; [apply uval_nonneg; auto|]. apply ubig_rem_unsigned_spec; auto.
Qed.

Lemma ubig_rem_ref_signed_spec : pdiv_yields x (ubig_rem_ref_signed tb u x) (Z.rem (uval u) x).
Proof.
  unfold ubig_rem_ref_signed. destruct (to_sign_magnitude_spec tb x Ht Hx) as [-> Ha].
  apply unwrap_rem_signed; auto; [apply uval_nonneg; auto|]. apply ubig_rem_ref_unsigned_spec; auto.
Qed.

Lemma ubig_rem_assign_signed_yields : div_yields x (ubig_rem_assign_signed tb u x) (Z.rem (uval u) x).
Proof.
  unfold ubig_rem_assign_signed. fsi. apply to_ubig_div_nonneg; [apply ibig_rem_vv_yields; auto|].
  intros N. pose proof (uval_nonneg _ Hu). rewrite <- Vi in H. apply (Z.rem_nonneg (ival (ibig_from_ubig u)) (ival p)); auto.
Qed.

Lemma ubig_div_rem_signed_spec : udiv_rem_yields x (ubig_div_rem_signed tb u x) (Z.quot (uval u) x) (Z.rem (uval u) x).
Proof.
  unfold ubig_div_rem_signed. fsi. apply to_ubig_div_rem; auto; [lia|apply ibig_div_rem_vv_yields; auto|].
  intros N. apply rem_abs_bound; auto.
Qed.

Lemma ubig_div_rem_ref_signed_spec : udiv_rem_yields x (ubig_div_rem_ref_signed tb u x) (Z.quot (uval u) x) (Z.rem (uval u) x).
Proof.
  unfold ubig_div_rem_ref_signed. fsr. apply to_ubig_div_rem; auto; [lia|apply ibig_div_rem_vv_yields; auto|].
  intros N. apply rem_abs_bound; auto.
Qed.

Lemma ubig_div_rem_euclid_signed_spec : udiv_rem_yields x (ubig_div_rem_euclid_signed tb u x) (ediv (uval u) x) (emod (uval u) x).
Proof.
  unfold ubig_div_rem_euclid_signed. fsi. apply to_ubig_div_rem; auto; [lia|apply ibig_div_rem_euclid_vv_yields; auto|].
  intros N. apply emod_abs_bound; auto.
Qed.

Lemma ubig_div_rem_euclid_ref_signed_spec : udiv_rem_yields x (ubig_div_rem_euclid_ref_signed tb u x) (ediv (uval u) x) (emod (uval u) x).
Proof.
  unfold ubig_div_rem_euclid_ref_signed. fsr. apply to_ubig_div_rem; auto; [lia|apply ibig_div_rem_euclid_vv_yields; auto|].
  intros N. apply emod_abs_bound; auto.
Qed.

End US.

(** * IBig with a primitive *)
Section IP.
Variables (sg : bool) (tb x : Z) (y : ibig).
Hypothesis Ht : prim_bits tb.
Hypothesis Hx : prim_range sg tb x.
Hypothesis Hy : ibig_ok y.

Ltac fp := destruct (ibig_from_prim_spec sg tb x Ht Hx) as (p & Ep & Hp & Vp); rewrite Ep; cbn [bind]; rewrite <- ?Vp.

Lemma ibig_add_primitive_yields : iyields (ibig_add_primitive sg tb y x) ((ival y) + x).
Proof. unfold ibig_add_primitive. fp. apply ibig_add_vv_yields; auto. Qed.

Lemma ibig_add_ref_primitive_yields : iyields (ibig_add_ref_primitive sg tb y x) ((ival y) + x).
Proof. unfold ibig_add_ref_primitive. fp. apply ibig_add_rv_yields; auto. Qed.

Lemma ibig_add_assign_primitive_yields : iyields (ibig_add_assign_primitive sg tb y x) ((ival y) + x).
Proof. unfold ibig_add_assign_primitive. fp. apply ibig_add_vv_yields; auto. Qed.

Lemma ibig_sub_primitive_yields : iyields (ibig_sub_primitive sg tb y x) ((ival y) - x).
Proof. unfold ibig_sub_primitive. fp. apply ibig_sub_vv_yields; auto. Qed.

Lemma ibig_sub_ref_primitive_yields : iyields (ibig_sub_ref_primitive sg tb y x) ((ival y) - x).
Proof. unfold ibig_sub_ref_primitive. fp. apply ibig_sub_rv_yields; auto. Qed.

Lemma ibig_sub_assign_primitive_yields : iyields (ibig_sub_assign_primitive sg tb y x) ((ival y) - x).
Proof. unfold ibig_sub_assign_primitive. fp. apply ibig_sub_vv_yields; auto. Qed.

Lemma ibig_mul_primitive_yields : iyields (ibig_mul_primitive sg tb y x) ((ival y) * x).
Proof. unfold ibig_mul_primitive. fp. apply ibig_mul_vv_yields; auto. Qed.

Lemma ibig_mul_ref_primitive_yields : iyields (ibig_mul_ref_primitive sg tb y x) ((ival y) * x).
Proof. unfold ibig_mul_ref_primitive. fp. apply ibig_mul_rv_yields; auto. Qed.

Lemma ibig_mul_assign_primitive_yields : iyields (ibig_mul_assign_primitive sg tb y x) ((ival y) * x).
Proof. unfold ibig_mul_assign_primitive. fp. apply ibig_mul_vv_yields; auto. Qed.

Lemma ibig_or_primitive_yields : iyields (ibig_or_primitive sg tb y x) (Z.lor (ival y) x).
Proof. unfold ibig_or_primitive. fp. apply ibig_or_vv_yields; auto. Qed.

Lemma ibig_or_ref_primitive_yields : iyields (ibig_or_ref_primitive sg tb y x) (Z.lor (ival y) x).
Proof. unfold ibig_or_ref_primitive. fp. apply ibig_or_rv_yields; auto. Qed.

Lemma ibig_or_assign_primitive_yields : iyields (ibig_or_assign_primitive sg tb y x) (Z.lor (ival y) x).
Proof. unfold ibig_or_assign_primitive. fp. apply ibig_or_vv_yields; auto. Qed.

Lemma ibig_xor_primitive_yields : iyields (ibig_xor_primitive sg tb y x) (Z.lxor (ival y) x).
Proof. unfold ibig_xor_primitive. fp. apply ibig_xor_vv_yields; auto. Qed.

Lemma ibig_xor_ref_primitive_yields : iyields (ibig_xor_ref_primitive sg tb y x) (Z.lxor (ival y) x).
Proof. unfold ibig_xor_ref_primitive. fp. apply ibig_xor_rv_yields; auto. Qed.

Lemma ibig_xor_assign_primitive_yields : iyields (ibig_xor_assign_primitive sg tb y x) (Z.lxor (ival y) x).
Proof. unfold ibig_xor_assign_primitive. fp. apply ibig_xor_vv_yields; auto. Qed.

Lemma ibig_and_not_primitive_yields : iyields (ibig_and_not_primitive sg tb y x) (Z.ldiff (ival y) x).
Proof. unfold ibig_and_not_primitive. fp. apply ibig_and_not_vv_yields; auto. Qed.

Lemma ibig_and_not_ref_primitive_yields : iyields (ibig_and_not_ref_primitive sg tb y x) (Z.ldiff (ival y) x).
Proof. unfold ibig_and_not_ref_primitive. fp. apply ibig_and_not_rv_yields; auto. Qed.

Lemma ibig_and_assign_primitive_yields : iyields (ibig_and_assign_primitive sg tb y x) (Z.land (ival y) x).
Proof. unfold ibig_and_assign_primitive. fp. apply ibig_and_vv_yields; auto. Qed.

Lemma ibig_sub_from_primitive_yields : iyields (ibig_sub_from_primitive sg tb y x) (x - ival y).
Proof. unfold ibig_sub_from_primitive. fp. apply ibig_sub_vv_yields; auto. Qed.

Lemma ibig_sub_ref_from_primitive_yields : iyields (ibig_sub_ref_from_primitive sg tb y x) (x - ival y).
Proof. unfold ibig_sub_ref_from_primitive. fp. apply ibig_sub_vr_yields; auto. Qed.

Lemma ibig_div_primitive_yields : idiv_yields x (ibig_div_primitive sg tb y x) (Z.quot (ival y) x).
Proof. unfold ibig_div_primitive. fp. apply ibig_div_vv_yields; auto. Qed.

Lemma ibig_div_ref_primitive_yields : idiv_yields x (ibig_div_ref_primitive sg tb y x) (Z.quot (ival y) x).
Proof. unfold ibig_div_ref_primitive. fp. apply ibig_div_rv_yields; auto. Qed.

Lemma ibig_div_assign_primitive_yields : idiv_yields x (ibig_div_assign_primitive sg tb y x) (Z.quot (ival y) x).
Proof. unfold ibig_div_assign_primitive. fp. apply ibig_div_vv_yields; auto. Qed.

Lemma ibig_div_euclid_primitive_yields : idiv_yields x (ibig_div_euclid_primitive sg tb y x) (ediv (ival y) x).
Proof. unfold ibig_div_euclid_primitive. fp. apply ibig_div_euclid_vv_yields; auto. Qed.

Lemma ibig_div_euclid_ref_primitive_yields : idiv_yields x (ibig_div_euclid_ref_primitive sg tb y x) (ediv (ival y) x).
Proof. unfold ibig_div_euclid_ref_primitive. fp. apply ibig_div_euclid_rv_yields; auto. Qed.

Lemma ibig_rem_assign_primitive_yields : idiv_yields x (ibig_rem_assign_primitive sg tb y x) (Z.rem (ival y) x).
Proof. unfold ibig_rem_assign_primitive. fp. apply ibig_rem_vv_yields; auto. Qed.

Lemma ibig_rem_euclid_primitive_spec : pdiv_yields x (ibig_rem_euclid_primitive sg tb y x) (emod (ival y) x).
Proof.
  unfold ibig_rem_euclid_primitive. fp. apply unwrap_prim_rem; auto; [apply ibig_rem_euclid_vv_yields; auto|].
  rewrite Vp. apply emod_range; auto.
Qed.

Lemma ibig_div_rem_euclid_primitive_spec : ipdiv_rem_yields x (ibig_div_rem_euclid_primitive sg tb y x) (ediv (ival y) x) (emod (ival y) x).
Proof.
  unfold ibig_div_rem_euclid_primitive. fp. apply unwrap_prim_div_rem; auto; [apply ibig_div_rem_euclid_vv_yields; auto|].
  rewrite Vp. apply emod_range; auto.
Qed.

Lemma ibig_rem_euclid_ref_primitive_spec : pdiv_yields x (ibig_rem_euclid_ref_primitive sg tb y x) (emod (ival y) x).
Proof.
  unfold ibig_rem_euclid_ref_primitive. fp. apply unwrap_prim_rem; auto; [apply ibig_rem_euclid_rv_yields; auto|].
  rewrite Vp. apply emod_range; auto.
Qed.

Lemma ibig_div_rem_euclid_ref_primitive_spec : ipdiv_rem_yields x (ibig_div_rem_euclid_ref_primitive sg tb y x) (ediv (ival y) x) (emod (ival y) x).
Proof.
  unfold ibig_div_rem_euclid_ref_primitive. fp. apply unwrap_prim_div_rem; auto; [apply ibig_div_rem_euclid_rv_yields; auto|].
  rewrite Vp. apply emod_range; auto.
Qed.

End IP.

Section IU.
Variables (tb x : Z) (y : ibig).
Hypothesis Ht : prim_bits tb.
Hypothesis Hx : 0 <= x < 2 ^ tb.
Hypothesis Hy : ibig_ok y.

Ltac fu := destruct (ibig_from_unsigned_spec tb x Ht Hx) as (p & Ep & Hp & Vp); rewrite Ep; cbn [bind]; rewrite <- ?Vp.

Lemma ibig_and_unsigned_spec : ibig_and_unsigned tb y x = Ok (Z.land (ival y) x).
Proof.
  unfold ibig_and_unsigned. fu. apply iunwrap_land; auto; [lia|]. apply ibig_and_vv_yields; auto.
Qed.

Lemma ibig_rem_unsigned_yields : idiv_yields x (ibig_rem_unsigned tb y x) (Z.rem (ival y) x).
Proof. unfold ibig_rem_unsigned. fu. apply ibig_rem_vv_yields; auto. Qed.

Lemma ibig_div_rem_unsigned_yields : idiv_rem_yields x (ibig_div_rem_unsigned tb y x) (Z.quot (ival y) x) (Z.rem (ival y) x).
Proof. unfold ibig_div_rem_unsigned. fu. apply ibig_div_rem_vv_yields; auto. Qed.

Lemma ibig_and_ref_unsigned_spec : ibig_and_ref_unsigned tb y x = Ok (Z.land (ival y) x).
Proof.
  unfold ibig_and_ref_unsigned. fu. apply iunwrap_land; auto; [lia|]. apply ibig_and_rv_yields; auto.
Qed.

Lemma ibig_rem_ref_unsigned_yields : idiv_yields x (ibig_rem_ref_unsigned tb y x) (Z.rem (ival y) x).
Proof. unfold ibig_rem_ref_unsigned. fu. apply ibig_rem_rv_yields; auto. Qed.

Lemma ibig_div_rem_ref_unsigned_yields : idiv_rem_yields x (ibig_div_rem_ref_unsigned tb y x) (Z.quot (ival y) x) (Z.rem (ival y) x).
Proof. unfold ibig_div_rem_ref_unsigned. fu. apply ibig_div_rem_rv_yields; auto. Qed.

End IU.

Section IS.
Variables (tb x : Z) (y : ibig).
Hypothesis Ht : prim_bits tb.
Hypothesis Hx : - 2 ^ (tb - 1) <= x < 2 ^ (tb - 1).
Hypothesis Hy : ibig_ok y.

Ltac fs := destruct (ibig_from_signed_spec tb x Ht Hx) as (p & Ep & Hp & Vp); rewrite Ep; cbn [bind]; rewrite <- ?Vp.

Lemma ibig_and_signed_yields : iyields (ibig_and_signed tb y x) (Z.land (ival y) x).
Proof. unfold ibig_and_signed. fs. apply ibig_and_vv_yields; auto. Qed.

Lemma ibig_rem_signed_spec : pdiv_yields x (ibig_rem_signed tb y x) (Z.rem (ival y) x).
Proof.
  unfold ibig_rem_signed. fs. apply (unwrap_prim_rem true tb (ival p)); auto; [apply ibig_rem_vv_yields; auto|].
  rewrite Vp. apply rem_range; auto.
Qed.

Lemma ibig_div_rem_signed_spec : ipdiv_rem_yields x (ibig_div_rem_signed tb y x) (Z.quot (ival y) x) (Z.rem (ival y) x).
Proof.
  unfold ibig_div_rem_signed. fs. apply (unwrap_prim_div_rem true tb (ival p)); auto; [apply ibig_div_rem_vv_yields; auto|].
  rewrite Vp. apply rem_range; auto.
Qed.

Lemma ibig_and_ref_signed_yields : iyields (ibig_and_ref_signed tb y x) (Z.land (ival y) x).
Proof. unfold ibig_and_ref_signed. fs. apply ibig_and_rv_yields; auto. Qed.

Lemma ibig_rem_ref_signed_spec : pdiv_yields x (ibig_rem_ref_signed tb y x) (Z.rem (ival y) x).
Proof.
  unfold ibig_rem_ref_signed. fs. apply (unwrap_prim_rem true tb (ival p)); auto; [apply ibig_rem_rv_yields; auto|].
  rewrite Vp. apply rem_range; auto.
Qed.

Lemma ibig_div_rem_ref_signed_spec : ipdiv_rem_yields x (ibig_div_rem_ref_signed tb y x) (Z.quot (ival y) x) (Z.rem (ival y) x).
Proof.
  unfold ibig_div_rem_ref_signed. fs. apply (unwrap_prim_div_rem true tb (ival p)); auto; [apply ibig_div_rem_rv_yields; auto|].
  rewrite Vp. apply rem_range; auto.
Qed.

End IS.

End PrimOpsProofs.
