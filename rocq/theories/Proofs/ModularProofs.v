(** Modular arithmetic: rings, conversion, addition, subtraction, multiplication. *)
From Verif Require Import Model.Base Model.Words Model.Add Model.Shift Model.FastDivide Model.DivWord Model.Memory Model.Mul
  Model.Div Model.RawMemory Model.Buffer Model.UBig Model.IBig Model.Convert Model.ShiftOps Model.Modular
  Spec.Val Spec.Num Spec.Modular
  Proofs.Basics Proofs.AddProofs Proofs.ShiftProofs Proofs.FastDivideProofs Proofs.DivWordProofs Proofs.MulWordProofs
  Proofs.MulProofs Proofs.MulFull Proofs.DivProofs Proofs.BufferProofs Proofs.ConvertProofs Proofs.ShiftOpsProofs Proofs.Scratch.
From Coq Require Import Lia.

Section ModularProofs.
Context {A : Arch} {AOK : ArchOk A}.

(** ** Rings *)

Definition rs_ok (r : ring_small) (n : Z) : Prop :=
  1 <= n < B /\ 0 <= rs_shift r < wbits /\ rs_modulus r = n * 2 ^ rs_shift r /\ fdn_ok (rs_fast_div r) (rs_modulus r).

Definition rl_ok (r : ring_large) (n : Z) : Prop :=
  B <= n /\ 0 <= rl_shift r < wbits /\ val (rl_modulus r) = n * 2 ^ rl_shift r /\
  norm_div (rl_modulus r) (rl_fast_div_top r) /\ (2 <= length (rl_modulus r))%nat /\ len (rl_modulus r) <= MAX_LEN /\
  wf (rl_modulus r).

Lemma shl_w_norm w : 0 < w < B -> let s := leading_zeros_w w in
  0 <= s < wbits /\ shl_w w s = w * 2 ^ s /\ B <= 2 * (w * 2 ^ s) /\ w * 2 ^ s < B.
Proof.
  intros H. cbv zeta. pose proof (leading_zeros_w_lt w H) as Hs. destruct (normalize_word w H) as [N1 N2].
  set (s := leading_zeros_w w) in *. unfold shl_w. rewrite Z.shiftl_mul_pow2 by lia.
  rewrite Z.mod_small by lia. split; [lia|]. split; [reflexivity|]. lia.
Qed.

Theorem ring_new_spec addr u : ubig_ok u ->
  if uval u =? 0 then ring_new addr u = Panic ZeroModulus
  else exists r, ring_new addr u = Ok r /\ ring_addr r = addr /\
    match r with RingSmall s => rs_ok s (uval u) | RingLarge s => rl_ok s (uval u) end.
Proof.
  intros Hu. destruct u as [w|b]; cbn [ring_new uval].
  - cbn [ubig_ok] in Hu. destruct (Z.eqb_spec w 0) as [->|N]; [reflexivity|].
    unfold ring_small_new. rewrite check_true by lia. cbv zeta.
    destruct (shl_w_norm w ltac:(lia)) as (Hs & E & N1 & N2). rewrite E.
    destruct (fdn_new_spec (w * 2 ^ leading_zeros_w w) N1 N2) as (f & -> & Hf). cbn [bind].
    eexists. split; [reflexivity|]. split; [reflexivity|]. unfold rs_ok. cbn [rs_shift rs_modulus rs_fast_div].
    split; [lia|]. auto.
  - pose proof (Large_ge b Hu) as G. pose proof B_ge. rewrite (proj2 (Z.eqb_neq _ _)) by lia.
    destruct Hu as (W & L & T & M & _). destruct (last_split (words b) 0) as (rest & E).
    { intros E. rewrite E in L. cbn in L. lia. }
    set (t := last (words b) 0) in *. unfold ring_large_new. rewrite E in W, L, G, M |- *. rewrite app_length in L. cbn [length] in L.
    destruct (normalize_large_spec rest t W T ltac:(lia)) as (ws & f & -> & N & Lw & Hs & V). cbn [bind].
    eexists. split; [reflexivity|]. split; [reflexivity|]. unfold rl_ok. cbn [rl_shift rl_modulus rl_fast_div_top].
    split; [exact G|]. split; [exact Hs|]. split; [exact V|]. split; [exact N|].
    unfold len in *. rewrite app_length in M. cbn [length] in M. split; [lia|]. split; [lia|]. apply N.
Qed.

Lemma is_ring_small r n : is_ring (RingSmall r) n -> rs_ok r n.
Proof.
  intros (u & Hu & <- & E). pose proof (ring_new_spec (ring_addr (RingSmall r)) u Hu) as S. rewrite E in S.
  destruct (uval u =? 0); [discriminate|]. destruct S as (r' & Er & _ & S). injection Er as <-. exact S.
Qed.
Lemma is_ring_large r n : is_ring (RingLarge r) n -> rl_ok r n.
Proof.
  intros (u & Hu & <- & E). pose proof (ring_new_spec (ring_addr (RingLarge r)) u Hu) as S. rewrite E in S.
  destruct (uval u =? 0); [discriminate|]. destruct S as (r' & Er & _ & S). injection Er as <-. exact S.
Qed.

Lemma is_ring_pos r n : is_ring r n -> 1 <= n.
Proof.
  pose proof B_ge as HB. destruct r as [r|r]; intros H; [apply is_ring_small in H|apply is_ring_large in H]; destruct H; lia.
Qed.

Theorem ring_new_ring addr u : ubig_ok u -> uval u <> 0 -> exists r, ring_new addr u = Ok r /\ is_ring r (uval u) /\ ring_addr r = addr.
Proof.
  intros Hu N. pose proof (ring_new_spec addr u Hu) as S. rewrite (proj2 (Z.eqb_neq _ _)) in S by auto.
  destruct S as (r & E & Ea & _). exists r. split; [exact E|]. split; [|exact Ea]. exists u. rewrite Ea. auto.
Qed.

(** ** Small values *)
Section SmallRing.
Context (r : ring_small) (n : Z) (R : rs_ok r n).
Local Notation s := (rs_shift r).

Definition raw_of (raw a : Z) : Prop := raw = a * 2 ^ s /\ 0 <= a < n.

Lemma pow_s : 1 <= 2 ^ s.
Proof. destruct R as (_ & H & _). pose proof (Z.pow_pos_nonneg 2 s ltac:(lia) ltac:(lia)). lia. Qed.

Lemma land_ones_w x k : 0 <= k < wbits -> Z.land x (ones_w k) = x mod 2 ^ k.
Proof. intros H. rewrite ones_w_eq, Z.land_ones by lia. reflexivity. Qed.

Lemma raw_of_bound raw a : raw_of raw a -> 0 <= raw < rs_modulus r /\ rs_modulus r < B.
Proof.
  intros [-> H]. pose proof pow_s. pose proof R as (_ & _ & E & _ & _ & F & _). rewrite E in *. nia.
Qed.

Lemma raw_valid raw a : raw_of raw a -> raw_is_valid raw r = true.
Proof.
  intros H. pose proof (raw_of_bound raw a H). unfold raw_is_valid. destruct R as (_ & Hs & _). rewrite land_ones_w by auto.
  destruct H as [-> H]. rewrite Z.mod_mul by (pose proof pow_s; lia). rewrite (proj2 (Z.ltb_lt _ _)) by lia. reflexivity.
Qed.

Lemma raw_mod z : raw_of ((z * 2 ^ s) mod rs_modulus r) (z mod n).
Proof.
  pose proof pow_s. destruct R as (Hn & Hs & -> & _). split; [|apply Z.mod_pos_bound; lia].
  apply Z.mul_mod_distr_r; lia.
Qed.

Lemma raw_of_residue raw a : raw_of raw a -> raw_residue raw r = Ok a.
Proof.
  intros H. unfold raw_residue. rewrite check_true by (eapply raw_valid; eauto). unfold shr_w. rewrite Z.shiftr_div_pow2 by (destruct R; lia).
  destruct H as [-> H]. rewrite Z.div_mul by (pose proof pow_s; lia). reflexivity.
Qed.

Lemma shl_dw_word w : 0 <= w < B -> shl_dw (extend_word w) s = w * 2 ^ s.
Proof.
  intros H. unfold shl_dw, extend_word. destruct R as (_ & Hs & _). rewrite Z.shiftl_mul_pow2 by lia. apply Z.mod_small.
  assert (2 ^ s < B) by (unfold B; apply Z.pow_lt_mono_r; lia). pose proof pow_s. nia.
Qed.

Lemma fd_small a : 0 <= a < rs_modulus r * B -> fdn_div_rem (rs_fast_div r) a = Ok (a / rs_modulus r, a mod rs_modulus r).
Proof. intros H. destruct R as (_ & _ & _ & F). apply fdn_div_rem_spec; auto. Qed.

Lemma raw_from_word_spec w : 0 <= w < B -> exists raw, raw_from_word w r = Ok raw /\ raw_of raw (w mod n).
Proof.
  intros H. exists ((w * 2 ^ s) mod rs_modulus r). split; [|apply raw_mod]. unfold raw_from_word. pose proof R as (Hn & Hs & E & F).
  destruct (Z.eqb_spec s 0) as [E0|N].
  - rewrite (fdn_div_rem_word_spec _ _ _ F) by auto. cbn [bind]. rewrite E0, Z.pow_0_r, Z.mul_1_r. reflexivity.
  - rewrite shl_dw_word by auto. rewrite fd_small. { reflexivity. } rewrite E. pose proof pow_s as HP. assert (Hw : w < n * B) by nia.
    clear - HP H Hw. nia.
Qed.

Lemma raw_from_large_spec ws : wf ws -> exists raw, raw_from_large ws r = Ok raw /\ raw_of raw (val ws mod n).
Proof.
  intros W. exists ((val ws * 2 ^ s) mod rs_modulus r). split; [|apply raw_mod]. unfold raw_from_large. pose proof R as (Hn & Hs & E & F).
  rewrite (fast_rem_by_normalized_word_spec _ _ _ W F). cbn [bind]. pose proof pow_s.
  assert (Mp : 0 < rs_modulus r) by (rewrite E; nia). assert (MB : rs_modulus r < B) by (apply F).
  pose proof (Z.mod_pos_bound (val ws) _ Mp) as Hm.
  destruct (Z.eqb_spec s 0) as [E0|N]; cbn [negb].
  - rewrite E0, Z.pow_0_r, Z.mul_1_r. reflexivity.
  - rewrite shl_dw_word by lia. assert (2 ^ s < B) by (unfold B; apply Z.pow_lt_mono_r; lia). rewrite fd_small by nia. cbn [bind].
    f_equal. apply Z.mul_mod_idemp_l. lia.
Qed.

Lemma small_new_spec raw a : raw_of raw a -> small_new raw r = Ok (mkModuloSmall r raw).
Proof. intros H. unfold small_new. rewrite check_true by (eapply raw_valid; eauto). reflexivity. Qed.

Lemma raw_negate_spec raw a : raw_of raw a -> exists raw', raw_negate raw r = Ok raw' /\ raw_of raw' ((- a) mod n).
Proof.
  intros H. pose proof (raw_of_bound raw a H) as Bd. unfold raw_negate. rewrite check_true by (eapply raw_valid; eauto).
  destruct H as [E H]. pose proof R as (Hn & Hs & EM & _). pose proof pow_s.
  destruct (Z.eqb_spec raw 0) as [Z0|N].
  - assert (a = 0) by nia. subst a. exists 0. split; [reflexivity|]. rewrite Z.mod_0_l by lia. split; lia.
  - assert (a <> 0) by (intros ->; lia). rewrite word_chk_ok by lia. eexists. split; [reflexivity|].
    replace ((- a) mod n) with (n - a) by (apply Z.mod_unique with (-1); lia). split; [rewrite EM, E; ring|lia].
Qed.

Lemma raw_add_spec x a y b : raw_of x a -> raw_of y b -> exists raw', raw_add x y r = Ok raw' /\ raw_of raw' ((a + b) mod n).
Proof.
  intros Hx Hy. pose proof (raw_of_bound x a Hx) as Bx. pose proof (raw_of_bound y b Hy) as By.
  assert (Wx : 0 <= x < B) by lia. assert (Wy : 0 <= y < B) by lia. assert (WM : 0 <= rs_modulus r < B) by lia. unfold raw_add.
  rewrite check_true by (rewrite (raw_valid x a), (raw_valid y b) by auto; reflexivity).
  pose proof (overflowing_add_spec x y Wx Wy) as S. destruct (overflowing_add x y) as [v o]. destruct S as [S1 S2].
  cbv zeta. destruct Hx as [Ex Hx], Hy as [Ey Hy]. pose proof R as (Hn & Hs & EM & _). pose proof pow_s.
  destruct (o || (rs_modulus r <=? v)) eqn:C.
  - pose proof (overflowing_sub_spec v (rs_modulus r) S2 WM) as S. destruct (overflowing_sub v (rs_modulus r)) as [v2 o2].
    destruct S as [S3 S4].
    assert (G : rs_modulus r <= x + y) by (destruct o; cbn [Z.b2z] in *; [lia|]; cbn in C; lia).
    assert (o = o2) by (destruct o, o2; cbn [Z.b2z] in *; try reflexivity; exfalso; cbn in C; lia). subst o2.
    rewrite check_true by (destruct o; reflexivity). exists v2. split; [reflexivity|].
    replace ((a + b) mod n) with (a + b - n) by (apply Z.mod_unique with 1; nia).
    split; [rewrite EM in *; destruct o; cbn [Z.b2z] in *; lia|nia].
  - destruct o; [discriminate|]. cbn [orb Z.b2z] in *. exists v. split; [reflexivity|].
    rewrite Z.mod_small by nia. split; [lia|nia].
Qed.

Lemma raw_sub_spec x a y b : raw_of x a -> raw_of y b -> exists raw', raw_sub x y r = Ok raw' /\ raw_of raw' ((a - b) mod n).
Proof.
  intros Hx Hy. pose proof (raw_of_bound x a Hx) as Bx. pose proof (raw_of_bound y b Hy) as By.
  assert (Wx : 0 <= x < B) by lia. assert (Wy : 0 <= y < B) by lia. assert (WM : 0 <= rs_modulus r < B) by lia. unfold raw_sub.
  rewrite check_true by (rewrite (raw_valid x a), (raw_valid y b) by auto; reflexivity).
  pose proof (overflowing_sub_spec x y Wx Wy) as S. destruct (overflowing_sub x y) as [v o]. destruct S as [S1 S2].
  destruct Hx as [Ex Hx], Hy as [Ey Hy]. pose proof R as (Hn & Hs & EM & _). pose proof pow_s.
  destruct o; cbn [Z.b2z] in *.
  - pose proof (overflowing_add_spec v (rs_modulus r) S2 WM) as S. destruct (overflowing_add v (rs_modulus r)) as [v2 o2].
    destruct S as [S3 S4]. destruct o2; cbn [Z.b2z] in *; [|lia]. rewrite check_true by reflexivity. exists v2. split; [reflexivity|].
    replace ((a - b) mod n) with (a - b + n) by (apply Z.mod_unique with (-1); nia). split; [lia|nia].
  - exists v. split; [reflexivity|]. rewrite Z.mod_small by nia. split; [lia|nia].
Qed.

Lemma raw_mul_spec x a y b : raw_of x a -> raw_of y b -> exists raw', raw_mul x y r = Ok raw' /\ raw_of raw' ((a * b) mod n).
Proof.
  intros Hx Hy. pose proof (raw_of_bound x a Hx) as Bx. pose proof (raw_of_bound y b Hy) as By. unfold raw_mul.
  rewrite check_true by (rewrite (raw_valid x a), (raw_valid y b) by auto; reflexivity).
  pose proof R as (Hn & Hs & EM & _). pose proof pow_s. destruct Hx as [Ex Hx], Hy as [Ey Hy].
  unfold shr_w, extend_word. rewrite Z.shiftr_div_pow2 by lia. rewrite Ex, Z.div_mul by lia.
  assert (P : 0 <= a * y < rs_modulus r * B) by nia.
  assert (D : dword_chk (a * y) = Ok (a * y)).
  { apply dword_chk_ok. nia. }
  rewrite D. cbn [bind]. rewrite fd_small by auto. cbn [bind]. eexists. split; [reflexivity|].
  rewrite Ey, Z.mul_assoc. apply raw_mod.
Qed.


End SmallRing.

(** ** Large values *)
Section LargeRing.
Context (r : ring_large) (n : Z) (R : rl_ok r n).
Local Notation s := (rl_shift r).
Local Notation M := (rl_modulus r).

Definition large_of (ws : list Z) (a : Z) : Prop :=
  wf ws /\ length ws = length M /\ val ws = a * 2 ^ s /\ 0 <= a < n.

Lemma pow_sl : 1 <= 2 ^ s.
Proof. destruct R as (_ & H & _). pose proof (Z.pow_pos_nonneg 2 s ltac:(lia) ltac:(lia)). lia. Qed.

Lemma large_of_bound ws a : large_of ws a -> 0 <= val ws < val M.
Proof. intros (_ & _ & E & H). pose proof pow_sl. destruct R as (_ & _ & EM & _). rewrite E, EM. nia. Qed.

Lemma large_of_intro ws z : wf ws -> length ws = length M -> val ws = (z * 2 ^ s) mod val M -> large_of ws (z mod n).
Proof.
  intros W L E. split; [auto|]. split; [auto|]. pose proof pow_sl. destruct R as (Hn & Hs & EM & _). pose proof B_ge.
  split; [|apply Z.mod_pos_bound; lia]. rewrite E, EM. apply Z.mul_mod_distr_r; lia.
Qed.

Lemma B_mod_pow k : 0 <= k < wbits -> B = 2 ^ (wbits - k) * 2 ^ k.
Proof. intros H. unfold B. rewrite <- Z.pow_add_r by lia. f_equal. lia. Qed.

Lemma large_valid ws a : large_of ws a -> large_is_valid r ws = Ok true.
Proof.
  intros H. pose proof (large_of_bound ws a H) as Bd. destruct H as (W & L & E & H). unfold large_is_valid.
  pose proof R as (Hn & Hs & EM & N & L2 & _ & WM).
  rewrite (proj2 (Nat.eqb_eq _ _)) by auto. rewrite cmp_same_len_spec by auto. cbn [bind]. rewrite (proj2 (Z.compare_lt_iff _ _)) by lia.
  destruct ws as [|w t]; [cbn in L; lia|]. cbn [get nth_error bind]. rewrite land_ones_w by auto.
  rewrite val_cons in E. pose proof pow_sl. assert (w mod 2 ^ s = 0) as ->; [|reflexivity].
  replace w with ((a - 2 ^ (wbits - s) * val t) * 2 ^ s) by (rewrite (B_mod_pow s Hs) in E; lia).
  apply Z.mod_mul. lia.
Qed.

Lemma large_new_spec ws a : large_of ws a -> large_new ws r = Ok (mkModuloLarge r ws).
Proof. intros H. unfold large_new. rewrite (large_valid ws a H). reflexivity. Qed.

Lemma modify_spec m ws' a f : ml_ring m = r -> f (ml_value m) r = Ok ws' -> large_of ws' a -> modify m f = Ok (mkModuloLarge r ws').
Proof. intros E F H. unfold modify. rewrite E, F. cbn [bind]. rewrite (large_valid ws' a H). reflexivity. Qed.

Lemma denormalize_spec v z : wf v -> 0 <= len v <= MAX_LEN -> val v = z * 2 ^ s -> returns (denormalize v s) z.
Proof.
  intros W L E. unfold denormalize. pose proof MAX_LEN_ge. destruct (allocate_spec (len v)) as (c & -> & Hc). { rewrite MAX_CAPACITY_eq. lia. }
  cbn [bind]. rewrite extend_spec by (change (len []) with 0; lia). cbn [bind app]. unfold on_words. cbn [words cap].
  pose proof R as (Hn & Hs & _). destruct (shr_in_place_spec v s W Hs) as (v' & rem & -> & L' & W' & Hr & V). cbn [bind].
  pose proof pow_sl. assert (rem = 0).
  { rewrite E in V. assert (rem mod 2 ^ s = 0). { replace rem with ((z - val v') * 2 ^ s) by lia. apply Z.mod_mul; lia. }
    rewrite Z.mod_small in H1; lia. }
  subst rem. rewrite check_true by reflexivity. assert (val v' = z) by nia. subst z.
  assert (LL : len v' = len v) by (unfold len; lia).
  destruct (from_buffer_yields (mkBuffer v' c)) as [F _].
  { split; [exact W'|]. unfold blen. cbn [words cap]. lia. }
  cbn [words] in F. apply F. pose proof (val_bound v' W'). pose proof (proj1 (Bn_MAXV_le (length v'))) as Q. unfold len in *. lia.
Qed.

Lemma large_negate_spec ws a : large_of ws a ->
  exists ws', large_negate_in_place (mkModuloLarge r ws) = Ok (mkModuloLarge r ws') /\ large_of ws' ((- a) mod n).
Proof.
  intros H. pose proof H as (W & L & E & Ha). pose proof R as (Hn & Hs & EM & N & L2 & _ & WM). pose proof pow_sl.
  assert (K : exists ws', (if negb (forallb (fun w => w =? 0) ws) then
      '(ws, overflow) <- sub_same_len_in_place_swap M ws ;;
      check negb overflow ;; Ok ws
    else Ok ws) = Ok ws' /\ large_of ws' ((- a) mod n)).
  { destruct (forallb (fun w => w =? 0) ws) eqn:F; cbn [negb].
    - assert (val ws = 0). { clear - F. induction ws as [|w t IH]; [reflexivity|]. cbn in F. rewrite val_cons. apply andb_true_iff in F. destruct F as [F1 F2].
        rewrite IH by auto. lia. }
      assert (a = 0) by nia. subst a. exists ws. split; [reflexivity|]. rewrite Z.mod_0_l by lia. exact H.
    - assert (val ws <> 0). { intros Z0. clear - F Z0 W AOK. induction ws as [|w t IH]; [discriminate|]. apply wf_cons in W. destruct W as [W1 W2].
        rewrite val_cons in Z0. pose proof (val_bound t W2). pose proof B_ge. assert (w = 0) by nia. assert (val t = 0) by nia. cbn in F. subst w.
        apply IH; auto. }
      destruct (sub_same_len_swap_spec M ws WM W ltac:(lia)) as (ws' & o & -> & L' & W' & V). cbn [bind].
      pose proof (large_of_bound ws a H). pose proof (val_bound ws' W') as Bd. rewrite L' in Bd.
      assert (o = false) by (destruct o; [exfalso; cbn [Z.b2z] in V; lia|reflexivity]). subst o. cbn [Z.b2z negb] in *. rewrite check_true by reflexivity.
      exists ws'. split; [reflexivity|]. assert (a <> 0) by (intros ->; lia).
      replace ((- a) mod n) with (n - a) by (apply Z.mod_unique with (-1); lia). split; [auto|]. split; [lia|]. split; [|lia]. rewrite EM, E in V. lia. }
  destruct K as (ws' & K & H'). exists ws'. split; [|exact H']. unfold large_negate_in_place. eapply modify_spec; [reflexivity|exact K|exact H'].
Qed.

Lemma large_add_spec x a y b r' : large_of x a -> large_of y b -> rl_addr r' = rl_addr r ->
  exists ws', large_add_in_place (mkModuloLarge r x) (mkModuloLarge r' y) = Ok (mkModuloLarge r ws') /\ large_of ws' ((a + b) mod n).
Proof.
  intros Hx Hy Ea. pose proof (large_of_bound x a Hx) as Bx. pose proof (large_of_bound y b Hy) as By.
  pose proof Hx as (Wx & Lx & Ex & Ha). pose proof Hy as (Wy & Ly & Ey & Hb). pose proof R as (Hn & Hs & EM & N & L2 & _ & WM). pose proof pow_sl.
  unfold large_add_in_place, large_check_same_ring. cbn [ml_ring ml_value]. rewrite Ea, Z.eqb_refl. cbn [bind].
  match goal with |- context [modify _ ?f] => assert (K : exists ws', f x r = Ok ws' /\ large_of ws' ((a + b) mod n)) end.
  { destruct (add_same_len_spec x y Wx Wy ltac:(lia)) as (v & o & -> & L' & W' & V). cbn [bind].
    pose proof (val_bound v W') as Bv. rewrite L' in Bv. pose proof (val_bound M WM) as BM. rewrite <- Lx in BM.
    rewrite cmp_same_len_spec by (auto; lia).
    assert (C : exists c : bool, (if o then Ok true else c <- Ok (val v ?= val M);; Ok match c with Lt => false | _ => true end) = Ok c /\
      if c then val M <= val x + val y else val x + val y < val M /\ o = false).
    { destruct o; cbn [Z.b2z] in V; [exists true; split; [reflexivity|lia]|]. cbn [bind].
      destruct (Z.compare_spec (val v) (val M)); [exists true|exists false|exists true]; (split; [reflexivity|]); lia || (split; [lia|reflexivity]). }
    destruct C as (c & -> & C). cbn [bind]. destruct c.
    - destruct (sub_same_len_spec v M W' WM ltac:(lia)) as (v2 & o2 & -> & L2' & W2' & V2). cbn [bind].
      pose proof (val_bound v2 W2') as Bv2. rewrite L2', L' in Bv2. rewrite L' in V2.
      assert (o = o2) by (destruct o, o2; cbn [Z.b2z] in *; try reflexivity; exfalso; lia). subst o2.
      rewrite check_true by (destruct o; reflexivity). exists v2. split; [reflexivity|].
      apply large_of_intro; [auto|lia|]. apply Z.mod_unique with 1; [destruct o; cbn [Z.b2z] in *; lia|].
      destruct o; cbn [Z.b2z] in *; lia.
    - destruct C as [C ->]. cbn [Z.b2z] in *. exists v. split; [reflexivity|]. apply large_of_intro; [auto|lia|]. rewrite Z.mod_small by lia. lia. }
  destruct K as (ws' & K & H'). exists ws'. split; [|exact H']. eapply modify_spec; [reflexivity|exact K|exact H'].
Qed.

Lemma large_sub_spec x a y b r' : large_of x a -> large_of y b -> rl_addr r' = rl_addr r ->
  exists ws', large_sub_in_place (mkModuloLarge r x) (mkModuloLarge r' y) = Ok (mkModuloLarge r ws') /\ large_of ws' ((a - b) mod n).
Proof.
  intros Hx Hy Ea. pose proof (large_of_bound x a Hx) as Bx. pose proof (large_of_bound y b Hy) as By.
  pose proof Hx as (Wx & Lx & Ex & Ha). pose proof Hy as (Wy & Ly & Ey & Hb). pose proof R as (Hn & Hs & EM & N & L2 & _ & WM). pose proof pow_sl.
  unfold large_sub_in_place, large_check_same_ring. cbn [ml_ring ml_value]. rewrite Ea, Z.eqb_refl. cbn [bind].
  match goal with |- context [modify _ ?f] => assert (K : exists ws', f x r = Ok ws' /\ large_of ws' ((a - b) mod n)) end.
  { destruct (sub_same_len_spec x y Wx Wy ltac:(lia)) as (v & o & -> & L' & W' & V). cbn [bind].
    pose proof (val_bound v W') as Bv. rewrite L' in Bv. pose proof (val_bound M WM) as BM. rewrite <- Lx in BM. destruct o; cbn [Z.b2z] in V.
    - destruct (add_same_len_spec v M W' WM ltac:(lia)) as (v2 & o2 & -> & L2' & W2' & V2). cbn [bind].
      pose proof (val_bound v2 W2') as Bv2. rewrite L2', L' in Bv2. rewrite L' in V2. destruct o2; cbn [Z.b2z] in V2; [|lia].
      rewrite check_true by reflexivity. exists v2. split; [reflexivity|].
      apply large_of_intro; [auto|lia|]. apply Z.mod_unique with (-1); lia.
    - exists v. split; [reflexivity|]. apply large_of_intro; [auto|lia|]. rewrite Z.mod_small by lia. lia. }
  destruct K as (ws' & K & H'). exists ws'. split; [|exact H']. eapply modify_spec; [reflexivity|exact K|exact H'].
Qed.

Lemma large_sub_swap_spec x a y b r' : large_of x a -> large_of y b -> rl_addr r' = rl_addr r ->
  exists ws', large_sub_in_place_swap (mkModuloLarge r' x) (mkModuloLarge r y) = Ok (mkModuloLarge r ws') /\ large_of ws' ((a - b) mod n).
Proof.
  intros Hx Hy Ea. pose proof (large_of_bound x a Hx) as Bx. pose proof (large_of_bound y b Hy) as By.
  pose proof Hx as (Wx & Lx & Ex & Ha). pose proof Hy as (Wy & Ly & Ey & Hb). pose proof R as (Hn & Hs & EM & N & L2 & _ & WM). pose proof pow_sl.
  unfold large_sub_in_place_swap, large_check_same_ring. cbn [ml_ring ml_value]. rewrite Ea, Z.eqb_refl. cbn [bind].
  match goal with |- context [modify _ ?f] => assert (K : exists ws', f y r = Ok ws' /\ large_of ws' ((a - b) mod n)) end.
  { destruct (sub_same_len_swap_spec x y Wx Wy ltac:(lia)) as (v & o & -> & L' & W' & V). cbn [bind].
    pose proof (val_bound v W') as Bv. rewrite L' in Bv. pose proof (val_bound M WM) as BM. rewrite <- Ly in BM. destruct o; cbn [Z.b2z] in V.
    - destruct (add_same_len_spec v M W' WM ltac:(lia)) as (v2 & o2 & -> & L2' & W2' & V2). cbn [bind].
      pose proof (val_bound v2 W2') as Bv2. rewrite L2', L' in Bv2. rewrite L' in V2. destruct o2; cbn [Z.b2z] in V2; [|lia].
      rewrite check_true by reflexivity. exists v2. split; [reflexivity|].
      apply large_of_intro; [auto|lia|]. apply Z.mod_unique with (-1); lia.
    - exists v. split; [reflexivity|]. apply large_of_intro; [auto|lia|]. rewrite Z.mod_small by lia. lia. }
  destruct K as (ws' & K & H'). exists ws'. split; [|exact H']. eapply modify_spec; [reflexivity|exact K|exact H'].
Qed.

Lemma div_post_mod lhs lhs' o : wf lhs -> wf M -> div_post lhs M lhs' o ->
  exists rem, slice_to (length M) lhs' = Ok rem /\ wf rem /\ length rem = length M /\ val rem = val lhs mod val M.
Proof.
  intros W WM (rem & Q & -> & Wr & WQ & Lr & LQ & V & Lt). exists rem.
  rewrite slice_to_Ok by (rewrite app_length; lia). rewrite <- Lr, firstn_app, Nat.sub_diag, firstn_all. cbn [firstn]. rewrite app_nil_r. split; [reflexivity|].
  split; [auto|]. split; [auto|]. pose proof (val_bound rem Wr). apply Z.mod_unique with (val Q + Bn (length Q) * Z.b2z o); lia.
Qed.

Lemma mul_normalized_spec x a y b mem : large_of x a -> large_of y b -> ring_need (length M) <= mem ->
  exists p, mul_normalized r x y mem = Ok p /\ large_of p ((a * b) mod n).
Proof.
  intros Hx Hy Hm. pose proof (large_of_bound x a Hx) as Bx. pose proof (large_of_bound y b Hy) as By.
  pose proof Hx as (Wx & Lx & Ex & Ha). pose proof Hy as (Wy & Ly & Ey & Hb). pose proof R as (Hn & Hs & EM & N & L2 & _ & WM). pose proof pow_sl as HP.
  unfold mul_normalized. unfold ring_need in Hm. destruct (div_memory_half (length M) L2) as (d & Ed & Hd). pose proof (mul_memory_nonneg (length M)).
  rewrite check_true by (rewrite Lx, Ly, Nat.eqb_refl; reflexivity). rewrite alloc_fill_ok by lia. cbn [bind].
  set (mem' := mem - _). assert (H2 : mul_memory (length M) <= mem' /\ d <= mem') by (unfold mem'; lia).
  destruct (add_signed_mul_same_len_spec (length M) (repeat 0 (2 * length M)) Positive x y mem') as (c & k & -> & Lc & Wc & Vc);
    auto using wf_repeat0; try lia. { apply repeat_length. }
  cbn [bind]. rewrite val_repeat0 in Vc. rewrite repeat_length in Lc, Vc. cbn [sign_val] in Vc.
  assert (k = 0).
  { pose proof (val_bound c Wc) as Bc. rewrite Lc in Bc. pose proof (val_bound x Wx) as Vx. pose proof (val_bound y Wy) as Vy. rewrite Lx in Vx. rewrite Ly in Vy.
    replace (2 * length M)%nat with (length M + length M)%nat in * by lia. rewrite Bn_add in *. clear - Bc Vx Vy Vc.
    set (q := Bn (length M)) in *. nia. }
  subst k. rewrite check_true by reflexivity.
  destruct (shr_in_place_spec c s Wc Hs) as (c2 & rem & -> & Lc2 & Wc2 & Hr & Vc2). cbn [bind].
  assert (V2 : val c2 = a * b * 2 ^ s).
  { rewrite Z.mul_0_r, Z.add_0_r, Z.add_0_l, Z.mul_1_l in Vc. rewrite Vc, Ex, Ey in Vc2.
    clear - Vc2 Hr HP. set (P := 2 ^ s) in *. assert (rem = 0); [|nia].
    assert (rem mod P = 0). { replace rem with ((a * P * b - val c2) * P) by lia. apply Z.mod_mul; lia. } rewrite Z.mod_small in H; lia. }
  destruct (div_rem_in_place_spec c2 M (rl_fast_div_top r) d mem' N Wc2) as (c3 & o & -> & D); [auto|lia|rewrite Lc2, Lc; exact Ed|lia|].
  cbn [bind]. destruct (div_post_mod c2 c3 o Wc2 WM D) as (p & -> & Wp & Lp & Vp). exists p. split; [reflexivity|].
  apply large_of_intro; auto. rewrite Vp, V2. reflexivity.
Qed.

Lemma mul_normalized_in_place_spec x a y b mem : large_of x a -> large_of y b -> ring_need (length M) <= mem ->
  exists p, mul_normalized_in_place (mkModuloLarge r x) y mem = Ok (mkModuloLarge r p) /\ large_of p ((a * b) mod n).
Proof.
  intros Hx Hy Hm. destruct (mul_normalized_spec x a y b mem Hx Hy Hm) as (p & E & H). exists p. split; [|exact H].
  unfold mul_normalized_in_place. eapply modify_spec; [reflexivity| |exact H]. cbn [ml_value]. rewrite E. cbn [bind]. unfold copy_slice.
  rewrite check_true; [reflexivity|]. destruct Hx as (_ & -> & _), H as (_ & -> & _). apply Nat.eqb_refl.
Qed.

Lemma large_square_spec x a mem : large_of x a -> ring_need (length M) <= mem ->
  exists p, large_square_in_place (mkModuloLarge r x) mem = Ok (mkModuloLarge r p) /\ large_of p ((a * a) mod n).
Proof. intros Hx. exact (mul_normalized_in_place_spec x a x a mem Hx Hx). Qed.

Lemma large_from_ubig_spec u : ubig_ok u ->
  (uval u * 2 ^ s < MAXV -> exists ws, large_from_ubig u r = Ok (mkModuloLarge r ws) /\ large_of ws (uval u mod n)) /\
  (MAXV <= uval u * 2 ^ s -> large_from_ubig u r = Panic NumberTooLarge).
Proof.
  intros Hu. pose proof R as (Hn & Hs & EM & N & L2 & _ & WM). pose proof pow_sl as HP. unfold large_from_ubig.
  unfold ubig_shl_assign. destruct (ubig_shl_v_yields u s Hu) as [Y1 Y2]. { pose proof MAX_LEN_facts. pose proof wbits_cases. nia. }
  split; intros H; [|rewrite (Y2 H); reflexivity]. destruct (Y1 H) as (u' & -> & Hu' & Vu). cbn [bind].
  set (z := uval u) in *. pose proof B_ge as HB. pose proof (norm_div_bound M _ N) as NB.
  assert (MB : B <= val M). { rewrite EM. nia. }
  assert (K : exists vec, match u' with
     | Small w => Ok [w]
     | Large b => if (length (words b) <? length M)%nat then Ok (words b)
         else l <- div_layout word_ty (length (words b)) (length M);;
              mem <- new_memory l;;
              '(ws, _) <- div_rem_in_place (words b) M (rl_fast_div_top r) mem;; slice_to (length M) ws
     end = Ok vec /\ wf vec /\ (length vec <= length M)%nat /\ val vec = (z * 2 ^ s) mod val M).
  { rewrite <- Vu. destruct u' as [w|b]; cbn [uval].
    - cbn [ubig_ok] in Hu'. exists [w]. split; [reflexivity|]. split; [apply wf_cons; split; [auto|constructor]|]. split; [cbn; lia|].
      rewrite val_cons, Z.mod_small by lia. cbn [val]. lia.
    - pose proof Hu' as (Wb & Lb & _). destruct (Nat.ltb_spec (length (words b)) (length M)) as [C|C].
      + exists (words b). split; [reflexivity|]. split; [auto|]. split; [lia|]. rewrite Z.mod_small; [reflexivity|].
        pose proof (val_bound (words b) Wb) as Vb. assert (Bn (length (words b)) * B <= Bn (length M)).
        { rewrite Z.mul_comm, <- Bn_S. apply Bn_le. lia. }
        nia.
      + destruct (div_request (length (words b)) (length M)) as (d & l & Ed & -> & El); [lia| |]. { destruct Hu' as (_ & _ & _ & Mb & _). unfold blen, len in Mb. lia. }
        cbn [bind]. rewrite El. cbn [bind].
        destruct (div_rem_in_place_spec (words b) M (rl_fast_div_top r) d d N Wb L2 C Ed ltac:(lia)) as (c3 & o & -> & D).
        cbn [bind]. destruct (div_post_mod (words b) c3 o Wb WM D) as (p & Ep & Wp & Lp & Vp). exists p. split; [exact Ep|]. split; [auto|]. split; [lia|exact Vp]. }
  destruct K as (vec & -> & Wv & Lv & Vv). cbn [bind]. rewrite check_true by (apply Nat.leb_le; auto).
  exists (vec ++ repeat 0 (length M - length vec)).
  assert (HL : large_of (vec ++ repeat 0 (length M - length vec)) (z mod n)).
  { apply large_of_intro; [apply wf_app; auto using wf_repeat0|rewrite app_length, repeat_length; lia|]. rewrite val_app_zeros. exact Vv. }
  split; [|exact HL]. eapply large_new_spec. exact HL.
Qed.

End LargeRing.

End ModularProofs.
