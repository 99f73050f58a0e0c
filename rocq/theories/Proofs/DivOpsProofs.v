(** Division operators. *)
From Verif Require Import Model.Base Model.Words Model.Shift Model.Memory Model.FastDivide Model.DivWord Model.Div
  Model.Buffer Model.UBig Model.IBig Model.Convert Model.AddOps Model.DivOps Spec.Val Spec.Num Proofs.Basics
  Proofs.ShiftProofs Proofs.FastDivideProofs Proofs.DivWordProofs Proofs.DivProofs Proofs.BufferProofs Proofs.AddOpsProofs
  Proofs.ConvertProofs Proofs.MulOpsProofs Proofs.ShiftOpsProofs Proofs.Scratch.
From Coq Require Import Lia.

Section DivOpsProofs.
Context {A : Arch} {AOK : ArchOk A}.

Lemma div_rem_unique a b q r : 0 < b -> 0 <= r < b -> a = r + b * q -> q = a / b /\ r = a mod b.
Proof.
  intros Hb Hr E. split; symmetry; [apply div_eq with r|apply mod_eq with q]; auto.
Qed.

Lemma div_rem_scale a b q r p : 0 < b -> 0 < p -> 0 <= r < b * p -> a * p = r + (b * p) * q ->
  q = a / b /\ r = (a mod b) * p.
Proof.
  intros Hb Hp Hr E. destruct (div_rem_unique (a * p) (b * p) q r) as [-> ->]; auto; [nia|].
  rewrite Z.div_mul_cancel_r by lia. rewrite Zmult_mod_distr_r. auto.
Qed.

Lemma div_rem_in_lhs_spec lhs rhs : ubig_ok (Large lhs) -> ubig_ok (Large rhs) -> blen rhs <= blen lhs ->
  exists lhs' rw s rem Q, div_rem_in_lhs lhs rhs = Ok (lhs', mkBuffer rw (cap rhs), s) /\
    buffer_ok lhs' /\ words lhs' = rem ++ Q /\ wf rem /\ wf Q /\
    length rem = length (words rhs) /\ length rw = length (words rhs) /\ 0 <= s < wbits /\
    val Q = val (words lhs) / val (words rhs) /\ val rem = (val (words lhs) mod val (words rhs)) * 2 ^ s.
Proof.
  intros Hl Hr HL. pose proof (Large_buffer_ok _ Hl) as Bl. pose proof Hl as (Wl & Ll & Tl & Ml & _).
  pose proof (Large_ge _ Hr) as GR. pose proof B_pos as PB.
  pose proof Hr as (Wr & Lr & Tr & Mr & _).
  unfold div_rem_in_lhs. destruct (last_split (words rhs) 0) as (rest & Er); [destruct (words rhs); [simpl in Lr; lia|discriminate]|].
  set (w := last (words rhs) 0) in *. clearbody w. unfold blen, len in *.
  assert (length (words rhs) = S (length rest)) as Lrest by (rewrite Er, app_length; simpl; lia).
  destruct (normalize_large_spec rest w) as (rw & f & EN & ND & LN & Hs & VN); [rewrite <- Er; auto|auto|lia|].
  rewrite <- Er in *. rewrite EN. cbn [bind words]. set (s := leading_zeros_w w) in *. clearbody s.
  destruct (shl_in_place_spec (words lhs) s Wl Hs) as (lw & c & ES & L1 & W1 & Hc & V1).
  rewrite (on_words_ok _ _ _ _ ES). cbn [bind].
  assert (c < B) as HcB by (apply Z.lt_le_trans with (2 ^ s); [lia|unfold B; apply Z.pow_le_mono_r; lia]).
  assert (buffer_ok (mkBuffer lw (cap lhs))) as B1 by (destruct lhs as [lw0 lc]; eapply buffer_ok_same; eauto).
  assert (exists b2, (if c =? 0 then Ok (mkBuffer lw (cap lhs)) else push_may_reallocate (mkBuffer lw (cap lhs)) c) = Ok b2 /\
    buffer_ok b2 /\ val (words b2) = val (words lhs) * 2 ^ s /\ (length (words lhs) <= length (words b2))%nat /\
    (blen b2 <= MAX_LEN \/ length (words b2) = S (length (words lhs)))) as (b2 & -> & B2 & V2 & L2 & M2).
  { destruct (Z.eqb_spec c 0) as [->|N].
    - eexists; split; [reflexivity|]. split; [auto|]. cbn [words]. split; [lia|]. split; [lia|]. left. unfold blen, len. cbn [words]. lia.
    - destruct (push_may_reallocate_spec (mkBuffer lw (cap lhs)) c B1 ltac:(lia)) as (cc & E & H1 & H2); [unfold blen, len; cbn [words]; lia|].
      cbn [words] in *. exists (mkBuffer (lw ++ [c]) cc). split; [exact E|]. split; [exact H1|]. cbn [words].
      rewrite val_app, val_single, app_length. cbn [length]. rewrite L1. split; [lia|]. split; [lia|]. right. lia. }
  cbn [bind]. clear B1 ES EN. destruct B2 as [W2 C2].
  destruct (div_request (length (words b2)) (length rw)) as (need & l & Emem & -> & El); [lia|unfold blen, len in *; lia|]. cbn [bind]. rewrite El. cbn [bind].
  destruct (div_rem_in_place_spec (words b2) rw f need need ND W2) as (lw' & o & ED & rem & Q & Elw & Wrem & WQ & Lrem & LQ & VD & Hrem); auto; try lia.
  rewrite (on_words_ok _ _ _ _ ED). cbn [bind].
  pose proof (norm_div_bound _ _ ND) as [HN _]. pose proof (val_nonneg _ Wrem) as Nrem.
  assert (0 < 2 ^ s) as Ps by (apply pow2_pos; lia).
  set (va := val (words lhs)) in *. set (vb := val (words rhs)) in *.
  assert (val Q + Bn (length Q) * Z.b2z o = va / vb /\ val rem = (va mod vb) * 2 ^ s) as [EQ ER].
  { apply div_rem_scale; [lia|lia|lia|]. rewrite <- V2, <- VN. exact VD. }
  assert (length lw' = length (words b2)) as Llw by (rewrite Elw, app_length; clear - Lrem LQ L2 LN Lrest HL Lr; lia).
  assert (buffer_ok (mkBuffer lw' (cap b2))) as B3.
  { apply (buffer_ok_same (words b2)); [split; [exact W2|exact C2]|rewrite Elw; apply wf_app; auto|auto]. }
  destruct o; cbn [Z.b2z] in EQ.
  - destruct M2 as [M2|M2].
    + destruct (push_may_reallocate_spec (mkBuffer lw' (cap b2)) 1 B3) as (cc & -> & H1 & H2);
        [pose proof B_ge; lia|unfold blen, len in *; cbn [words]; lia|].
      cbn [bind words]. do 5 eexists. split; [reflexivity|]. split; [exact H1|]. cbn [words]. rewrite Elw, <- app_assoc.
      split; [reflexivity|]. split; [auto|]. split; [apply wf_app; split; [auto|apply wf_cons; split; [pose proof B_ge; lia|apply wf_nil]]|].
      split; [lia|]. split; [lia|]. split; [auto|]. rewrite val_app, val_single. auto.
    + exfalso. pose proof (val_bound _ Wl) as BL. fold va in BL. cbn [Z.b2z] in VD.
      pose proof (val_nonneg _ WQ) as NQ. pose proof (val_bound _ (proj1 ND)) as BR.
      assert (length (words b2) = length rw + length Q)%nat as E1 by (unfold blen, len in *; lia).
      assert (B * Bn (length (words lhs)) = Bn (length rw) * Bn (length Q)) as E2 by (rewrite <- Bn_add, <- E1, M2, Bn_S; reflexivity).
      assert (2 * 2 ^ s <= B) as E3.
      { rewrite B_even. pose proof (Z.pow_le_mono_r 2 s (wbits - 1) ltac:(lia)) as G. lia. }
      pose proof (Bn_pos (length Q)). pose proof (Bn_pos (length (words lhs))).
      assert (Bn (length rw) * Bn (length Q) <= 2 * (val rw * Bn (length Q))) by (mle (Bn (length Q)) (Bn (length rw)) (2 * val rw); lia).
      assert (val rw * Bn (length Q) <= val rw * (val Q + Bn (length Q) * 1)) by (apply mul_le_l; lia).
      assert (va * 2 ^ s < Bn (length (words lhs)) * 2 ^ s) by (apply Z.mul_lt_mono_pos_r; lia).
      assert (2 * (Bn (length (words lhs)) * 2 ^ s) <= B * Bn (length (words lhs))) by (mle (Bn (length (words lhs))) (2 * 2 ^ s) B; lia).
      lia.
  - cbn [bind]. do 5 eexists. split; [reflexivity|]. split; [exact B3|]. cbn [words]. rewrite Elw. split; [reflexivity|].
    split; [auto|]. split; [auto|]. split; [lia|]. split; [lia|]. split; [auto|]. split; [lia|auto].
Qed.

Lemma yields_Ok_exists r z : yields r z -> z < MAXV -> exists u, r = Ok u /\ ubig_ok u /\ uval u = z.
Proof. intros [Y _] H. auto. Qed.

Lemma Large_MAXV b : ubig_ok (Large b) -> 0 <= val (words b) < MAXV.
Proof. intros H. apply (ubig_ok_val _ H). Qed.

Lemma quot_MAXV a b : ubig_ok (Large a) -> 0 < b -> 0 <= val (words a) / b < MAXV.
Proof.
  intros Ha Hb. pose proof (Large_MAXV _ Ha). pose proof (div_self_bound (val (words a)) b). lia.
Qed.

Lemma erase_from_buffer lhs' rem Q n : buffer_ok lhs' -> words lhs' = rem ++ Q -> length rem = n -> wf Q ->
  exists b', erase_front lhs' n = Ok b' /\ yields (from_buffer b') (val Q).
Proof.
  intros [W C] E L WQ. unfold erase_front. rewrite check_true by (rewrite E, app_length; apply Nat.leb_le; lia).
  eexists; split; [reflexivity|]. rewrite E, skipn_app, <- L, Nat.sub_diag, skipn_all. cbn [app skipn].
  eapply yields_eq; [apply from_buffer_yields|reflexivity]. split; [auto|]. cbn [words cap]. unfold blen in *. rewrite E in C. rewrite len_app in C.
  cbn [words]. pose proof (len_nonneg rem). lia.
Qed.

Lemma take_rem_spec lhs' rem Q rw c s n v : words lhs' = rem ++ Q -> length rem = n -> length rw = n -> wf rem ->
  0 <= s < wbits -> val rem = v * 2 ^ s -> Z.of_nat n <= c ->
  exists b', take_rem lhs' (mkBuffer rw c) s = Ok b' /\ yields (from_buffer b') v.
Proof.
  intros E L Lw W Hs V C. unfold take_rem. cbn [words cap]. rewrite slice_to_Ok by (rewrite E, app_length; lia).
  rewrite Lw, E, <- L, firstn_app, Nat.sub_diag, firstn_all. cbn [firstn bind]. rewrite app_nil_r.
  destruct (shr_in_place_spec rem s W Hs) as (ws' & r & ES & L' & W' & Hr & V').
  rewrite (on_words_ok _ _ ws' r) by exact ES. cbn [bind cap].
  assert (0 < 2 ^ s) by (apply pow2_pos; lia).
  assert (r + 2 ^ s * val ws' = 0 + 2 ^ s * v) as D by lia. apply decomp in D as [-> D]; [|lia|lia].
  rewrite check_true by reflexivity. eexists; split; [reflexivity|]. eapply yields_eq; [apply from_buffer_yields|exact D].
  split; [auto|]. cbn [cap]. unfold blen, len. cbn [words]. lia.
Qed.

Lemma Large_cap b : ubig_ok (Large b) -> Z.of_nat (length (words b)) <= cap b.
Proof. intros H. destruct (Large_buffer_ok _ H) as [_ C]. exact C. Qed.

Lemma Large_nz b : ubig_ok (Large b) -> 0 < val (words b).
Proof. intros H. pose proof (Large_ge _ H). pose proof B_pos. lia. Qed.

Lemma div_large_yields a b : ubig_ok (Large a) -> ubig_ok (Large b) -> blen b <= blen a ->
  div_yields (val (words b)) (div_large a b) (val (words a) / val (words b)).
Proof.
  intros Ha Hb HL. pose proof (Large_nz _ Hb) as Pb. split; [lia|intros _].
  destruct (div_rem_in_lhs_spec a b Ha Hb HL) as (lhs' & rw & s & rem & Q & E & B1 & Ew & Wrem & WQ & Lrem & Lrw & Hs & VQ & VR).
  unfold div_large. rewrite E. cbn [bind words]. rewrite Lrw.
  destruct (erase_from_buffer lhs' rem Q _ B1 Ew Lrem WQ) as (b' & -> & Y). cbn [bind]. rewrite <- VQ.
  apply yields_Ok_exists; [auto|]. rewrite VQ. apply quot_MAXV; auto.
Qed.

Lemma rem_MAXV a b : ubig_ok (Large b) -> 0 <= a mod val (words b) < MAXV.
Proof. intros H. pose proof (Large_nz _ H). pose proof (Large_MAXV _ H). pose proof (Z.mod_pos_bound a (val (words b))). lia. Qed.

Lemma rem_large_yields a b : ubig_ok (Large a) -> ubig_ok (Large b) -> blen b <= blen a ->
  div_yields (val (words b)) (rem_large a b) (val (words a) mod val (words b)).
Proof.
  intros Ha Hb HL. pose proof (Large_nz _ Hb) as Pb. split; [lia|intros _].
  destruct (div_rem_in_lhs_spec a b Ha Hb HL) as (lhs' & rw & s & rem & Q & E & B1 & Ew & Wrem & WQ & Lrem & Lrw & Hs & VQ & VR).
  unfold rem_large. rewrite E. cbn [bind words].
  destruct (take_rem_spec lhs' rem Q rw (cap b) s _ _ Ew Lrem Lrw Wrem Hs VR (Large_cap _ Hb)) as (b' & -> & Y).
  cbn [bind]. apply yields_Ok_exists; [auto|]. apply rem_MAXV; auto.
Qed.

Lemma div_rem_large_yields a b : ubig_ok (Large a) -> ubig_ok (Large b) -> blen b <= blen a ->
  div_rem_yields (val (words b)) (div_rem_large a b) (val (words a) / val (words b)) (val (words a) mod val (words b)).
Proof.
  intros Ha Hb HL. pose proof (Large_nz _ Hb) as Pb. split; [lia|intros _].
  destruct (div_rem_in_lhs_spec a b Ha Hb HL) as (lhs' & rw & s & rem & Q & E & B1 & Ew & Wrem & WQ & Lrem & Lrw & Hs & VQ & VR).
  unfold div_rem_large. rewrite E. cbn [bind words].
  destruct (take_rem_spec lhs' rem Q rw (cap b) s _ _ Ew Lrem Lrw Wrem Hs VR (Large_cap _ Hb)) as (b' & -> & Y).
  cbn [bind]. rewrite Lrw. destruct (erase_from_buffer lhs' rem Q _ B1 Ew Lrem WQ) as (b2 & -> & Y2). cbn [bind].
  destruct (yields_Ok_exists _ _ Y2) as (q & -> & Hq & Eq); [rewrite VQ; apply quot_MAXV; auto|]. cbn [bind].
  destruct (yields_Ok_exists _ _ Y) as (r & -> & Hr & Er); [apply rem_MAXV; auto|]. cbn [bind].
  exists q, r. rewrite Eq, VQ. auto.
Qed.

(** * By one word *)
Lemma word_range x y : 0 <= x < B -> 0 < y -> 0 <= x / y < B.
Proof. intros. pose proof (div_self_bound x y). lia. Qed.
Lemma mod_range x y : 0 < y < B -> 0 <= x mod y < B.
Proof. intros. pose proof (Z.mod_pos_bound x y). lia. Qed.

Lemma div_word_yields x y : 0 <= x < B -> 0 <= y < B -> div_yields y (div_word x y) (x / y).
Proof.
  intros Hx Hy. unfold div_word. destruct (Z.eqb_spec y 0) as [->|N]; (split; intros; [auto; lia|try lia]).
  eexists; split; [reflexivity|]. split; [apply word_range; lia|reflexivity].
Qed.
Lemma rem_word_yields x y : 0 <= x < B -> 0 <= y < B -> div_yields y (rem_word x y) (x mod y).
Proof.
  intros Hx Hy. unfold rem_word. destruct (Z.eqb_spec y 0) as [->|N]; (split; intros; [auto; lia|try lia]).
  eexists; split; [reflexivity|]. split; [apply mod_range; lia|reflexivity].
Qed.
Lemma div_rem_word_yields x y : 0 <= x < B -> 0 <= y < B -> div_rem_yields y (div_rem_word x y) (x / y) (x mod y).
Proof.
  intros Hx Hy. unfold div_rem_word. destruct (Z.eqb_spec y 0) as [->|N]; (split; intros; [auto; lia|try lia]).
  do 2 eexists; split; [reflexivity|]. split; [apply word_range; lia|]. split; [apply mod_range; lia|]. split; reflexivity.
Qed.

Lemma div_rem_large_word_yields b y : ubig_ok (Large b) -> 0 <= y < B ->
  div_rem_yields y (div_rem_large_word b y) (val (words b) / y) (val (words b) mod y).
Proof.
  intros Hb Hy. unfold div_rem_large_word. destruct (Z.eqb_spec y 0) as [->|N]; (split; intros; [auto; lia|try lia]).
  pose proof (Large_buffer_ok _ Hb) as BO. pose proof Hb as (W & _).
  destruct (div_by_word_spec (words b) y W ltac:(lia)) as (ws' & E & L' & W' & V').
  rewrite (on_words_ok _ _ _ _ E). cbn [bind].
  destruct (yields_Ok_exists (from_buffer (mkBuffer ws' (cap b))) (val (words b) / y)) as (q & -> & Hq & Eq).
  - rewrite <- V'. apply (from_buffer_yields (mkBuffer ws' (cap b))). destruct b as [bw bc]. eapply buffer_ok_same; eauto.
  - apply quot_MAXV; auto; lia.
  - cbn [bind]. do 2 eexists; split; [reflexivity|]. split; [auto|]. split; [apply mod_range; lia|]. auto.
Qed.

Lemma div_large_word_yields b y : ubig_ok (Large b) -> 0 <= y < B ->
  div_yields y (div_large_word b y) (val (words b) / y).
Proof.
  intros Hb Hy. destruct (div_rem_large_word_yields b y Hb Hy) as [Y1 Y2]. unfold div_large_word. split; intros N.
  - rewrite Y1 by auto. reflexivity.
  - destruct (Y2 N) as (q & r & -> & Hq & Hr & Eq & Er). cbn [bind]. eauto.
Qed.

Lemma rem_large_word_yields ws y : wf ws -> 0 <= y < B -> div_yields y (rem_large_word ws y) (val ws mod y).
Proof.
  intros W Hy. unfold rem_large_word. destruct (Z.eqb_spec y 0) as [->|N]; (split; intros; [auto; lia|try lia]).
  rewrite rem_by_word_spec by (auto; lia). cbn [bind]. eexists; split; [reflexivity|]. split; [apply mod_range; lia|reflexivity].
Qed.

Lemma div_yields_Ok d u z : d <> 0 -> ubig_ok u -> uval u = z -> div_yields d (Ok u) z.
Proof. intros. split; [lia|]. eauto. Qed.
Lemma div_yields_of d r z : d <> 0 -> z < MAXV -> yields r z -> div_yields d r z.
Proof. intros H1 H2 Y. split; [lia|]. intros _. apply Y. auto. Qed.

Lemma small_large w b : 0 <= w < B -> ubig_ok (Large b) -> w / val (words b) = 0 /\ w mod val (words b) = w.
Proof. intros Hw Hb. pose proof (Large_ge _ Hb). split; [apply Z.div_small|apply Z.mod_small]; lia. Qed.
Lemma large_large a b : ubig_ok (Large a) -> ubig_ok (Large b) -> blen a < blen b ->
  val (words a) / val (words b) = 0 /\ val (words a) mod val (words b) = val (words a).
Proof.
  intros Ha Hb HL. pose proof Ha as (Wa & _). pose proof Hb as (Wb & _ & Tb & _). unfold blen, len in HL.
  assert (val (words a) < val (words b)) by (apply val_lt_len; auto; lia). pose proof (val_nonneg _ Wa).
  split; [apply Z.div_small|apply Z.mod_small]; lia.
Qed.

Lemma buffer_clone_ok b : ubig_ok (Large b) -> exists b', buffer_clone b = Ok b' /\ ubig_ok (Large b') /\ words b' = words b.
Proof. intros H. destruct (buffer_clone_spec b H) as (c & E & H'). eauto. Qed.

Lemma resizing_clone_from_spec b source : ubig_ok (Large source) ->
  exists b', resizing_clone_from b source = Ok b' /\ ubig_ok (Large b') /\ words b' = words source.
Proof.
  intros Hs. unfold resizing_clone_from. pose proof Hs as (W & L2 & T & LM & C1 & C2). unfold blen.
  pose proof (len_nonneg (words source)). pose proof MAX_LEN_usize. pose proof MAX_LEN_ge.
  assert (exists m, (if len (words source) <=? cap b then max_compact_capacity (len (words source)) else Ok (-1)) = Ok m /\
     (len (words source) <= cap b -> m <= max_cap (len (words source)))) as (m & -> & Hm).
  { destruct (Z.leb_spec (len (words source)) (cap b)) as [C|C]; [|eexists; split; [reflexivity|lia]].
    unfold max_compact_capacity. rewrite check_true by (rewrite MAX_CAPACITY_eq; lia). eexists; split; [reflexivity|unfold max_cap; rewrite MAX_CAPACITY_eq; lia]. }
  cbn [bind]. destruct (Z.leb_spec (len (words source)) (cap b)) as [C|C]; cbn [andb].
  - destruct (Z.leb_spec (cap b) m) as [D|D].
    + unfold buffer_clone_from. rewrite check_true by lia. eexists; split; [reflexivity|]. split; [|reflexivity].
      cbn [ubig_ok words cap]. repeat split; auto; try lia.
    + destruct (buffer_clone_ok source Hs) as (b' & -> & Hb' & E). eauto.
  - destruct (buffer_clone_ok source Hs) as (b' & -> & Hb' & E). eauto.
Qed.

Lemma large_from_buffer b : ubig_ok (Large b) -> yields (from_buffer b) (val (words b)).
Proof. intros H. apply from_buffer_yields, Large_buffer_ok; auto. Qed.

Ltac big_nz H := pose proof (Large_nz _ H).

Ltac div_case Ha Hb :=
  match goal with
  | |- context [if blen ?y <=? blen ?x then _ else _] => destruct (Z.leb_spec (blen y) (blen x)) as [C|C]
  | _ => idtac
  end.

Lemma blen_eq a b : words a = words b -> blen a = blen b.
Proof. unfold blen. congruence. Qed.

Lemma ubig_div_vv_yields a b : ubig_ok a -> ubig_ok b -> div_yields (uval b) (ubig_div_vv a b) (uval a / uval b).
Proof.
  intros Ha Hb. destruct a as [x|x], b as [y|y]; cbn [ubig_div_vv uval].
  - apply div_word_yields; auto.
  - big_nz Hb. apply div_yields_Ok; [lia|cbn; pose proof B_pos; lia|cbn; symmetry; apply small_large; auto].
  - apply div_large_word_yields; auto.
  - div_case Ha Hb; [apply div_large_yields; auto|].
    big_nz Hb. apply div_yields_Ok; [lia|cbn; pose proof B_pos; lia|cbn; symmetry; apply large_large; auto].
Qed.

Lemma ubig_rem_vv_yields a b : ubig_ok a -> ubig_ok b -> div_yields (uval b) (ubig_rem_vv a b) (uval a mod uval b).
Proof.
  intros Ha Hb. destruct a as [x|x], b as [y|y]; cbn [ubig_rem_vv uval].
  - apply rem_word_yields; auto.
  - big_nz Hb. apply div_yields_Ok; [lia|auto|cbn; symmetry; apply small_large; auto].
  - apply rem_large_word_yields; auto. apply Ha.
  - div_case Ha Hb; [apply rem_large_yields; auto|].
    big_nz Hb. rewrite (proj2 (large_large _ _ Ha Hb C)). apply div_yields_of; [lia|apply Large_MAXV; auto|apply large_from_buffer; auto].
Qed.

Lemma div_rem_yields_Ok d u v z1 z2 : d <> 0 -> ubig_ok u -> ubig_ok v -> uval u = z1 -> uval v = z2 -> div_rem_yields d (Ok (u, v)) z1 z2.
Proof. intros. split; [lia|]. intros _. exists u, v. auto. Qed.

Lemma zero_ok : ubig_ok (from_word 0). Proof. cbn. pose proof B_pos. lia. Qed.

Lemma ubig_div_rem_vv_yields a b : ubig_ok a -> ubig_ok b ->
  div_rem_yields (uval b) (ubig_div_rem_vv a b) (uval a / uval b) (uval a mod uval b).
Proof.
  intros Ha Hb. destruct a as [x|x], b as [y|y]; cbn [ubig_div_rem_vv uval].
  - apply div_rem_word_yields; auto.
  - big_nz Hb. apply div_rem_yields_Ok; [lia|apply zero_ok|auto|cbn; symmetry; apply small_large; auto..].
  - apply div_rem_large_word_yields; auto.
  - div_case Ha Hb; [apply div_rem_large_yields; auto|]. big_nz Hb. destruct (large_large _ _ Ha Hb C) as [-> ->].
    destruct (large_from_buffer _ Ha) as [Y _]. destruct Y as (u & -> & Hu & E); [apply Large_MAXV; auto|]. cbn [bind].
    apply div_rem_yields_Ok; [lia|apply zero_ok|auto|reflexivity|auto].
Qed.

(** The other operand forms. *)
Lemma ubig_div_vr_yields a b : ubig_ok a -> ubig_ok b -> div_yields (uval b) (ubig_div_vr a b) (uval a / uval b).
Proof.
  intros Ha Hb. destruct a as [x|x], b as [y|y]; try exact (ubig_div_vv_yields _ _ Ha Hb).
  pose proof Hb as Hb'. apply ubig_clone_spec in Hb'. cbn [ubig_div_vr uval].
  div_case Ha Hb; [|pose proof (ubig_div_vv_yields _ _ Ha Hb) as Y; cbn [ubig_div_vv uval] in Y;
                    rewrite (proj2 (Z.leb_gt _ _) C) in Y; exact Y].
  destruct (buffer_clone_ok y Hb) as (y' & -> & Hy & E). cbn [bind]. rewrite <- E. apply div_large_yields; auto.
  rewrite (blen_eq _ _ E). auto.
Qed.
Lemma ubig_div_rv_yields a b : ubig_ok a -> ubig_ok b -> div_yields (uval b) (ubig_div_rv a b) (uval a / uval b).
Proof.
  intros Ha Hb. destruct a as [x|x], b as [y|y]; try exact (ubig_div_vv_yields _ _ Ha Hb); cbn [ubig_div_rv uval].
  - destruct (buffer_clone_ok x Ha) as (x' & -> & Hx & E). cbn [bind]. rewrite <- E. apply div_large_word_yields; auto.
  - div_case Ha Hb; [|pose proof (ubig_div_vv_yields _ _ Ha Hb) as Y; cbn [ubig_div_vv uval] in Y;
                    rewrite (proj2 (Z.leb_gt _ _) C) in Y; exact Y].
    destruct (buffer_clone_ok x Ha) as (x' & -> & Hx & E). cbn [bind]. rewrite <- E. apply div_large_yields; auto.
    rewrite (blen_eq _ _ E). auto.
Qed.
Lemma ubig_div_rr_yields a b : ubig_ok a -> ubig_ok b -> div_yields (uval b) (ubig_div_rr a b) (uval a / uval b).
Proof.
  intros Ha Hb. destruct a as [x|x], b as [y|y]; try exact (ubig_div_rv_yields _ _ Ha Hb).
  cbn [ubig_div_rr uval].
  div_case Ha Hb; [|pose proof (ubig_div_vv_yields _ _ Ha Hb) as Y; cbn [ubig_div_vv uval] in Y;
                    rewrite (proj2 (Z.leb_gt _ _) C) in Y; exact Y].
  destruct (buffer_clone_ok x Ha) as (x' & -> & Hx & Ex). destruct (buffer_clone_ok y Hb) as (y' & -> & Hy & Ey).
  cbn [bind]. rewrite <- Ex, <- Ey. apply div_large_yields; auto. rewrite (blen_eq _ _ Ex), (blen_eq _ _ Ey). auto.
Qed.

Lemma ubig_rem_vr_yields a b : ubig_ok a -> ubig_ok b -> div_yields (uval b) (ubig_rem_vr a b) (uval a mod uval b).
Proof.
  intros Ha Hb. destruct a as [x|x], b as [y|y]; try exact (ubig_rem_vv_yields _ _ Ha Hb).
  cbn [ubig_rem_vr uval].
  div_case Ha Hb; [|pose proof (ubig_rem_vv_yields _ _ Ha Hb) as Y; cbn [ubig_rem_vv uval] in Y;
                    rewrite (proj2 (Z.leb_gt _ _) C) in Y; exact Y].
  destruct (buffer_clone_ok y Hb) as (y' & -> & Hy & E). cbn [bind]. rewrite <- E. apply rem_large_yields; auto.
  rewrite (blen_eq _ _ E). auto.
Qed.
Lemma ubig_rem_rv_yields a b : ubig_ok a -> ubig_ok b -> div_yields (uval b) (ubig_rem_rv a b) (uval a mod uval b).
Proof.
  intros Ha Hb. destruct a as [x|x], b as [y|y]; try exact (ubig_rem_vv_yields _ _ Ha Hb); cbn [ubig_rem_rv uval].
  div_case Ha Hb.
  - destruct (buffer_clone_ok x Ha) as (x' & -> & Hx & E). cbn [bind]. rewrite <- E. apply rem_large_yields; auto.
    rewrite (blen_eq _ _ E). auto.
  - destruct (resizing_clone_from_spec y x) as (y' & -> & Hy & E); [auto|]. cbn [bind].
    big_nz Hb. rewrite (proj2 (large_large _ _ Ha Hb C)), <- E.
    apply div_yields_of; [lia|apply Large_MAXV; auto|apply large_from_buffer; auto].
Qed.
Lemma ubig_rem_rr_yields a b : ubig_ok a -> ubig_ok b -> div_yields (uval b) (ubig_rem_rr a b) (uval a mod uval b).
Proof.
  intros Ha Hb. destruct a as [x|x], b as [y|y]; try exact (ubig_rem_vv_yields _ _ Ha Hb); cbn [ubig_rem_rr uval].
  div_case Ha Hb.
  - destruct (buffer_clone_ok x Ha) as (x' & -> & Hx & Ex). destruct (buffer_clone_ok y Hb) as (y' & -> & Hy & Ey).
    cbn [bind]. rewrite <- Ex, <- Ey. apply rem_large_yields; auto. rewrite (blen_eq _ _ Ex), (blen_eq _ _ Ey). auto.
  - big_nz Hb. rewrite (proj2 (large_large _ _ Ha Hb C)). destruct (ubig_clone_spec _ Ha) as (u & -> & Hu & E).
    apply div_yields_Ok; [lia|auto|auto].
Qed.

Lemma ubig_div_rem_vr_yields a b : ubig_ok a -> ubig_ok b ->
  div_rem_yields (uval b) (ubig_div_rem_vr a b) (uval a / uval b) (uval a mod uval b).
Proof.
  intros Ha Hb. destruct a as [x|x], b as [y|y]; try exact (ubig_div_rem_vv_yields _ _ Ha Hb).
  cbn [ubig_div_rem_vr uval].
  div_case Ha Hb; [|pose proof (ubig_div_rem_vv_yields _ _ Ha Hb) as Y; cbn [ubig_div_rem_vv uval] in Y;
                    rewrite (proj2 (Z.leb_gt _ _) C) in Y; exact Y].
  destruct (buffer_clone_ok y Hb) as (y' & -> & Hy & E). cbn [bind]. rewrite <- E. apply div_rem_large_yields; auto.
  rewrite (blen_eq _ _ E). auto.
Qed.
Lemma ubig_div_rem_rv_yields a b : ubig_ok a -> ubig_ok b ->
  div_rem_yields (uval b) (ubig_div_rem_rv a b) (uval a / uval b) (uval a mod uval b).
Proof.
  intros Ha Hb. destruct a as [x|x], b as [y|y]; try exact (ubig_div_rem_vv_yields _ _ Ha Hb); cbn [ubig_div_rem_rv uval].
  - destruct (buffer_clone_ok x Ha) as (x' & -> & Hx & E). cbn [bind]. rewrite <- E. apply div_rem_large_word_yields; auto.
  - div_case Ha Hb.
    + destruct (buffer_clone_ok x Ha) as (x' & -> & Hx & E). cbn [bind]. rewrite <- E. apply div_rem_large_yields; auto.
      rewrite (blen_eq _ _ E). auto.
    + destruct (resizing_clone_from_spec y x) as (y' & -> & Hy & E); [auto|]. cbn [bind].
      big_nz Hb. destruct (large_large _ _ Ha Hb C) as [-> ->]. rewrite <- E.
      destruct (large_from_buffer _ Hy) as [Y _]. destruct Y as (u & -> & Hu & Eu); [apply Large_MAXV; auto|]. cbn [bind].
      apply div_rem_yields_Ok; [lia|apply zero_ok|auto|reflexivity|auto].
Qed.
Lemma ubig_div_rem_rr_yields a b : ubig_ok a -> ubig_ok b ->
  div_rem_yields (uval b) (ubig_div_rem_rr a b) (uval a / uval b) (uval a mod uval b).
Proof.
  intros Ha Hb. destruct a as [x|x], b as [y|y]; try exact (ubig_div_rem_rv_yields _ _ Ha Hb); cbn [ubig_div_rem_rr uval].
  div_case Ha Hb.
  - destruct (buffer_clone_ok x Ha) as (x' & -> & Hx & Ex). destruct (buffer_clone_ok y Hb) as (y' & -> & Hy & Ey).
    cbn [bind]. rewrite <- Ex, <- Ey. apply div_rem_large_yields; auto. rewrite (blen_eq _ _ Ex), (blen_eq _ _ Ey). auto.
  - big_nz Hb. destruct (large_large _ _ Ha Hb C) as [-> ->]. destruct (ubig_clone_spec _ Ha) as (u & -> & Hu & E). cbn [bind].
    apply div_rem_yields_Ok; [lia|apply zero_ok|auto|reflexivity|auto].
Qed.

(** * Signed numbers: truncating division *)
Lemma quot_sign s t a b : 0 <= a -> 0 < b -> Z.quot (sign_val s * a) (sign_val t * b) = sign_val s * sign_val t * (a / b).
Proof.
  intros Ha Hb. destruct s, t; cbn [sign_val]; rewrite ?Z.mul_1_l.
  - rewrite Z.quot_div_nonneg by lia. reflexivity.
  - replace (-1 * b) with (- b) by lia. rewrite Z.quot_opp_r, Z.quot_div_nonneg by lia. lia.
  - replace (-1 * a) with (- a) by lia. rewrite Z.quot_opp_l, Z.quot_div_nonneg by lia. lia.
  - replace (-1 * a) with (- a) by lia. replace (-1 * b) with (- b) by lia. rewrite Z.quot_opp_opp, Z.quot_div_nonneg by lia. lia.
Qed.
Lemma rem_sign s t a b : 0 <= a -> 0 < b -> Z.rem (sign_val s * a) (sign_val t * b) = sign_val s * (a mod b).
Proof.
  intros Ha Hb. destruct s, t; cbn [sign_val]; rewrite ?Z.mul_1_l.
  - rewrite Z.rem_mod_nonneg by lia. reflexivity.
  - replace (-1 * b) with (- b) by lia. rewrite Z.rem_opp_r, Z.rem_mod_nonneg by lia. lia.
  - replace (-1 * a) with (- a) by lia. rewrite Z.rem_opp_l, Z.rem_mod_nonneg by lia. lia.
  - replace (-1 * a) with (- a) by lia. replace (-1 * b) with (- b) by lia. rewrite Z.rem_opp_opp, Z.rem_mod_nonneg by lia. lia.
Qed.

Lemma ival_zero x : ibig_ok x -> (ival x = 0 <-> uval (imag x) = 0).
Proof. intros H. pose proof (ibig_abs_val _ H). lia. Qed.

Lemma idiv_of f x y : ibig_ok x -> ibig_ok y -> div_yields (uval (imag y)) f (uval (imag x) / uval (imag y)) ->
  idiv_yields (ival y) (q <- f ;; Ok (from_sign_magnitude (sign_mul (isign x) (isign y)) q)) (Z.quot (ival x) (ival y)).
Proof.
  intros Hx Hy [Y1 Y2]. pose proof (ival_zero _ Hy) as Zy. split; intros N.
  - rewrite Y1 by tauto. reflexivity.
  - destruct Y2 as (q & -> & Hq & E); [tauto|]. cbn [bind]. eexists; split; [reflexivity|].
    destruct (from_sign_magnitude_spec (sign_mul (isign x) (isign y)) q Hq) as [H1 H2]. split; [auto|]. rewrite H2, E, sign_mul_val.
    pose proof (uval_nonneg _ (proj1 Hx)). pose proof (uval_nonneg _ (proj1 Hy)). unfold ival. rewrite quot_sign by lia. reflexivity.
Qed.
Lemma irem_of f x y : ibig_ok x -> ibig_ok y -> div_yields (uval (imag y)) f (uval (imag x) mod uval (imag y)) ->
  idiv_yields (ival y) (r <- f ;; Ok (from_sign_magnitude (isign x) r)) (Z.rem (ival x) (ival y)).
Proof.
  intros Hx Hy [Y1 Y2]. pose proof (ival_zero _ Hy) as Zy. split; intros N.
  - rewrite Y1 by tauto. reflexivity.
  - destruct Y2 as (q & -> & Hq & E); [tauto|]. cbn [bind]. eexists; split; [reflexivity|].
    destruct (from_sign_magnitude_spec (isign x) q Hq) as [H1 H2]. split; [auto|]. rewrite H2, E.
    pose proof (uval_nonneg _ (proj1 Hx)). pose proof (uval_nonneg _ (proj1 Hy)). unfold ival. rewrite rem_sign by lia. reflexivity.
Qed.
Lemma idiv_rem_of f x y : ibig_ok x -> ibig_ok y ->
  div_rem_yields (uval (imag y)) f (uval (imag x) / uval (imag y)) (uval (imag x) mod uval (imag y)) ->
  idiv_rem_yields (ival y) ('(q, r) <- f ;;
    Ok (from_sign_magnitude (sign_mul (isign x) (isign y)) q, from_sign_magnitude (isign x) r))
    (Z.quot (ival x) (ival y)) (Z.rem (ival x) (ival y)).
Proof.
  intros Hx Hy [Y1 Y2]. pose proof (ival_zero _ Hy) as Zy. split; intros N.
  - rewrite Y1 by tauto. reflexivity.
  - destruct Y2 as (q & r & -> & Hq & Hr & Eq & Er); [tauto|]. cbn [bind]. do 2 eexists; split; [reflexivity|].
    destruct (from_sign_magnitude_spec (sign_mul (isign x) (isign y)) q Hq) as [H1 H2].
    destruct (from_sign_magnitude_spec (isign x) r Hr) as [H3 H4]. split; [auto|]. split; [auto|]. rewrite H2, H4, Eq, Er, sign_mul_val.
    pose proof (uval_nonneg _ (proj1 Hx)). pose proof (uval_nonneg _ (proj1 Hy)). unfold ival. rewrite quot_sign, rem_sign by lia. auto.
Qed.

Section Forms.
Variables x y : ibig.
Hypothesis Hx : ibig_ok x.
Hypothesis Hy : ibig_ok y.

Lemma ibig_div_vv_yields : idiv_yields (ival y) (ibig_div_vv x y) (Z.quot (ival x) (ival y)).
Proof. apply idiv_of; auto. apply ubig_div_vv_yields; [apply Hx|apply Hy]. Qed.
Lemma ibig_div_vr_yields : idiv_yields (ival y) (ibig_div_vr x y) (Z.quot (ival x) (ival y)).
Proof. apply idiv_of; auto. apply ubig_div_vr_yields; [apply Hx|apply Hy]. Qed.
Lemma ibig_div_rv_yields : idiv_yields (ival y) (ibig_div_rv x y) (Z.quot (ival x) (ival y)).
Proof. apply idiv_of; auto. apply ubig_div_rv_yields; [apply Hx|apply Hy]. Qed.
Lemma ibig_div_rr_yields : idiv_yields (ival y) (ibig_div_rr x y) (Z.quot (ival x) (ival y)).
Proof. apply idiv_of; auto. apply ubig_div_rr_yields; [apply Hx|apply Hy]. Qed.
Lemma ibig_rem_vv_yields : idiv_yields (ival y) (ibig_rem_vv x y) (Z.rem (ival x) (ival y)).
Proof. apply irem_of; auto. apply ubig_rem_vv_yields; [apply Hx|apply Hy]. Qed.
Lemma ibig_rem_vr_yields : idiv_yields (ival y) (ibig_rem_vr x y) (Z.rem (ival x) (ival y)).
Proof. apply irem_of; auto. apply ubig_rem_vr_yields; [apply Hx|apply Hy]. Qed.
Lemma ibig_rem_rv_yields : idiv_yields (ival y) (ibig_rem_rv x y) (Z.rem (ival x) (ival y)).
Proof. apply irem_of; auto. apply ubig_rem_rv_yields; [apply Hx|apply Hy]. Qed.
Lemma ibig_rem_rr_yields : idiv_yields (ival y) (ibig_rem_rr x y) (Z.rem (ival x) (ival y)).
Proof. apply irem_of; auto. apply ubig_rem_rr_yields; [apply Hx|apply Hy]. Qed.
Lemma ibig_div_rem_vv_yields : idiv_rem_yields (ival y) (ibig_div_rem_vv x y) (Z.quot (ival x) (ival y)) (Z.rem (ival x) (ival y)).
Proof. apply idiv_rem_of; auto. apply ubig_div_rem_vv_yields; [apply Hx|apply Hy]. Qed.
Lemma ibig_div_rem_vr_yields : idiv_rem_yields (ival y) (ibig_div_rem_vr x y) (Z.quot (ival x) (ival y)) (Z.rem (ival x) (ival y)).
Proof. apply idiv_rem_of; auto. apply ubig_div_rem_vr_yields; [apply Hx|apply Hy]. Qed.
Lemma ibig_div_rem_rv_yields : idiv_rem_yields (ival y) (ibig_div_rem_rv x y) (Z.quot (ival x) (ival y)) (Z.rem (ival x) (ival y)).
Proof. apply idiv_rem_of; auto. apply ubig_div_rem_rv_yields; [apply Hx|apply Hy]. Qed.
Lemma ibig_div_rem_rr_yields : idiv_rem_yields (ival y) (ibig_div_rem_rr x y) (Z.quot (ival x) (ival y)) (Z.rem (ival x) (ival y)).
Proof. apply idiv_rem_of; auto. apply ubig_div_rem_rr_yields; [apply Hx|apply Hy]. Qed.

End Forms.

(** * Euclidean division *)

Lemma ediv_spec x y : y <> 0 -> x = y * ediv x y + emod x y /\ 0 <= emod x y < Z.abs y.
Proof.
  intros H. unfold ediv, emod. pose proof (Z.mod_pos_bound x (Z.abs y) ltac:(lia)).
  pose proof (Z.div_mod x (Z.abs y) ltac:(lia)) as E. split; [|lia]. rewrite E at 1. nia.
Qed.
Lemma ediv_unique x y q r : y <> 0 -> x = y * q + r -> 0 <= r < Z.abs y -> q = ediv x y /\ r = emod x y.
Proof.
  intros H E Hr. destruct (ediv_spec x y H) as [E2 R2]. set (q' := ediv x y) in *. set (r' := emod x y) in *. clearbody q' r'.
  assert (y * (q - q') = r' - r) as D by lia. assert (q - q' = 0); [|split; [lia|]; replace q with q' in * by lia; lia]. nia.
Qed.

Lemma rem_cases x y : y <> 0 -> let q := Z.quot x y in let r := Z.rem x y in
  (0 <= r -> q = ediv x y /\ r = emod x y) /\
  (r < 0 -> q - Z.sgn y = ediv x y /\ r + Z.abs y = emod x y /\ 2 * Z.abs q <= Z.abs x /\ 1 <= Z.abs x).
Proof.
  intros H q r. pose proof (Z.quot_rem x y H) as E. fold q r in E. pose proof (Z.rem_bound_abs x y H) as R. fold r in R.
  split; intros S.
  - apply ediv_unique; auto. lia.
  - assert (x < 0) as Sx by (pose proof (Z.rem_sign_mul x y H) as RS; fold r in RS; nia).
    assert (2 <= Z.abs y) by lia.
    assert (Z.abs x = Z.abs y * Z.abs q + Z.abs r) as EA.
    { rewrite <- Z.abs_mul. pose proof (Z.rem_sign_mul x y H).
      assert (y * q <= 0); [|lia]. unfold q. pose proof (Z.mul_quot_ge x y ltac:(lia) H). lia. }
    split; [|split; [|split]].
    + apply (ediv_unique x y (q - Z.sgn y) (r + Z.abs y)); auto; [|lia]. rewrite E at 1. rewrite Z.sgn_abs || nia.
    + apply (ediv_unique x y (q - Z.sgn y) (r + Z.abs y)); auto; [|lia]. nia.
    + nia.
    + nia.
Qed.

Lemma isign_val x : ibig_ok x -> (isign x = Positive -> 0 <= ival x) /\ (isign x = Negative -> ival x < 0).
Proof.
  intros [Hm Hz]. pose proof (uval_nonneg _ Hm). unfold ival. split; intros S; rewrite S; cbn [sign_val]; [lia|].
  assert (uval (imag x) <> 0) by (intros E; rewrite (Hz E) in S; discriminate). lia.
Qed.

Lemma abs_ref_spec x : ibig_ok x -> exists y, ibig_abs_ref x = Ok y /\ ibig_ok y /\ ival y = Z.abs (ival x).
Proof.
  intros Hx. unfold ibig_abs_ref, unsigned_abs_ref. destruct (ubig_clone_spec (imag x) (proj1 Hx)) as (u & -> & Hu & E). cbn [bind].
  eexists; split; [reflexivity|]. destruct (ibig_from_ubig_spec u Hu) as [H1 H2]. split; [auto|].
  rewrite H2, E. symmetry. apply ibig_abs_val; auto.
Qed.
Lemma abs_spec x : ibig_ok x -> ibig_ok (ibig_abs x) /\ ival (ibig_abs x) = Z.abs (ival x).
Proof.
  intros Hx. unfold ibig_abs, unsigned_abs. destruct (ibig_from_ubig_spec _ (proj1 Hx)) as [H1 H2]. split; [auto|].
  rewrite H2. symmetry. apply ibig_abs_val; auto.
Qed.

Lemma euclid_q q s x y : ibig_ok x -> ibig_ok y -> ibig_ok q -> ibig_ok s -> ival y <> 0 -> Z.rem (ival x) (ival y) < 0 ->
  ival q = Z.quot (ival x) (ival y) -> ival s = Z.sgn (ival y) ->
  exists q', ibig_sub_vv q s = Ok q' /\ ibig_ok q' /\ ival q' = ediv (ival x) (ival y).
Proof.
  intros Hx Hy Hq Hs N S Eq Es. destruct (rem_cases (ival x) (ival y) N) as [_ R]. destruct (R S) as (E1 & _ & E3 & E4).
  destruct (ibig_sub_vv_yields q s Hq Hs) as [Y _]. rewrite Eq, Es, E1 in Y. apply Y.
  pose proof (ibig_ok_val _ Hx). rewrite <- E1. lia.
Qed.
Lemma euclid_r r m x y : ibig_ok x -> ibig_ok y -> ibig_ok r -> ibig_ok m -> ival y <> 0 -> Z.rem (ival x) (ival y) < 0 ->
  ival r = Z.rem (ival x) (ival y) -> ival m = Z.abs (ival y) ->
  exists r', ibig_add_vv r m = Ok r' /\ ibig_ok r' /\ ival r' = emod (ival x) (ival y).
Proof.
  intros Hx Hy Hr Hm N S Er Em. destruct (rem_cases (ival x) (ival y) N) as [_ R]. destruct (R S) as (_ & E2 & _).
  destruct (ibig_add_vv_yields r m Hr Hm) as [Y _]. rewrite Er, Em, E2 in Y. apply Y.
  pose proof (ibig_ok_val _ Hy). destruct (ediv_spec (ival x) (ival y) N) as [_ B]. lia.
Qed.

Lemma div_euclid_v_of x y f : ibig_ok x -> ibig_ok y ->
  idiv_rem_yields (ival y) f (Z.quot (ival x) (ival y)) (Z.rem (ival x) (ival y)) ->
  idiv_yields (ival y) (s <- signum y ;; '(q, r) <- f ;;
    match isign r with Positive => Ok q | Negative => ibig_sub_vv q s end) (ediv (ival x) (ival y)).
Proof.
  intros Hx Hy [Y1 Y2]. destruct (signum_spec y Hy) as (s & -> & Hs & Es). cbn [bind]. split; intros N.
  - rewrite Y1 by auto. reflexivity.
  - destruct (Y2 N) as (q & r & -> & Hq & Hr & Eq & Er). cbn [bind]. destruct (isign_val _ Hr) as [P1 P2].
    destruct (rem_cases (ival x) (ival y) N) as [R _]. destruct (isign r).
    + exists q. split; [reflexivity|]. split; [auto|]. rewrite Eq. apply R. rewrite <- Er. auto.
    + apply euclid_q; auto. rewrite <- Er. auto.
Qed.
Lemma div_euclid_r_of x y f : ibig_ok x -> ibig_ok y ->
  idiv_rem_yields (ival y) f (Z.quot (ival x) (ival y)) (Z.rem (ival x) (ival y)) ->
  idiv_yields (ival y) ('(q, r) <- f ;;
    match isign r with Positive => Ok q | Negative => s <- signum y ;; ibig_sub_vv q s end) (ediv (ival x) (ival y)).
Proof.
  intros Hx Hy [Y1 Y2]. destruct (signum_spec y Hy) as (s & -> & Hs & Es). cbn [bind]. split; intros N.
  - rewrite Y1 by auto. reflexivity.
  - destruct (Y2 N) as (q & r & -> & Hq & Hr & Eq & Er). cbn [bind]. destruct (isign_val _ Hr) as [P1 P2].
    destruct (rem_cases (ival x) (ival y) N) as [R _]. destruct (isign r).
    + exists q. split; [reflexivity|]. split; [auto|]. rewrite Eq. apply R. rewrite <- Er. auto.
    + apply euclid_q; auto. rewrite <- Er. auto.
Qed.
Lemma rem_euclid_of x y f (m : res ibig) : ibig_ok x -> ibig_ok y ->
  idiv_yields (ival y) f (Z.rem (ival x) (ival y)) ->
  (exists m', m = Ok m' /\ ibig_ok m' /\ ival m' = Z.abs (ival y)) ->
  idiv_yields (ival y) (r <- f ;;
    match isign r with Positive => Ok r | Negative => m <- m ;; ibig_add_vv r m end) (emod (ival x) (ival y)).
Proof.
  intros Hx Hy [Y1 Y2] (m' & -> & Hm & Em). split; intros N.
  - rewrite Y1 by auto. reflexivity.
  - destruct (Y2 N) as (r & -> & Hr & Er). cbn [bind]. destruct (isign_val _ Hr) as [P1 P2].
    destruct (rem_cases (ival x) (ival y) N) as [R _]. destruct (isign r).
    + exists r. split; [reflexivity|]. split; [auto|]. rewrite Er. apply R. rewrite <- Er. auto.
    + apply euclid_r; auto. rewrite <- Er. auto.
Qed.
Lemma div_rem_euclid_of x y f (m : res ibig) : ibig_ok x -> ibig_ok y ->
  idiv_rem_yields (ival y) f (Z.quot (ival x) (ival y)) (Z.rem (ival x) (ival y)) ->
  (exists m', m = Ok m' /\ ibig_ok m' /\ ival m' = Z.abs (ival y)) ->
  idiv_rem_yields (ival y) ('(q, r) <- f ;;
    match isign r with Positive => Ok (q, r) | Negative =>
      s <- signum y ;; q <- ibig_sub_vv q s ;; m <- m ;; r <- ibig_add_vv r m ;; Ok (q, r) end)
    (ediv (ival x) (ival y)) (emod (ival x) (ival y)).
Proof.
  intros Hx Hy [Y1 Y2] (m' & -> & Hm & Em). destruct (signum_spec y Hy) as (s & -> & Hs & Es). cbn [bind]. split; intros N.
  - rewrite Y1 by auto. reflexivity.
  - destruct (Y2 N) as (q & r & -> & Hq & Hr & Eq & Er). cbn [bind]. destruct (isign_val _ Hr) as [P1 P2].
    destruct (rem_cases (ival x) (ival y) N) as [R _]. destruct (isign r).
    + exists q, r. split; [reflexivity|]. split; [auto|]. split; [auto|]. rewrite Eq, Er. apply R. rewrite <- Er. auto.
    + destruct (euclid_q q s x y) as (q' & -> & Hq' & Eq'); auto; [rewrite <- Er; auto|]. cbn [bind].
      destruct (euclid_r r m' x y) as (r' & -> & Hr' & Er'); auto; [rewrite <- Er; auto|]. cbn [bind]. exists q', r'. auto.
Qed.

Section EuclidForms.
Variables x y : ibig.
Hypothesis Hx : ibig_ok x.
Hypothesis Hy : ibig_ok y.

Lemma ibig_div_euclid_vv_yields : idiv_yields (ival y) (ibig_div_euclid_vv x y) (ediv (ival x) (ival y)).
Proof. apply div_euclid_v_of; auto. apply ibig_div_rem_vv_yields; auto. Qed.
Lemma ibig_div_euclid_vr_yields : idiv_yields (ival y) (ibig_div_euclid_vr x y) (ediv (ival x) (ival y)).
Proof. apply div_euclid_r_of; auto. apply ibig_div_rem_vr_yields; auto. Qed.
Lemma ibig_div_euclid_rv_yields : idiv_yields (ival y) (ibig_div_euclid_rv x y) (ediv (ival x) (ival y)).
Proof. apply div_euclid_v_of; auto. apply ibig_div_rem_rv_yields; auto. Qed.
Lemma ibig_div_euclid_rr_yields : idiv_yields (ival y) (ibig_div_euclid_rr x y) (ediv (ival x) (ival y)).
Proof. apply div_euclid_r_of; auto. apply ibig_div_rem_rr_yields; auto. Qed.

Lemma abs_val_ok : exists m', Ok (ibig_abs y) = Ok m' /\ ibig_ok m' /\ ival m' = Z.abs (ival y).
Proof. destruct (abs_spec y Hy). eauto. Qed.
Lemma abs_ref_ok : exists m', ibig_abs_ref y = Ok m' /\ ibig_ok m' /\ ival m' = Z.abs (ival y).
Proof. apply abs_ref_spec; auto. Qed.

Lemma ibig_rem_euclid_vv_yields : idiv_yields (ival y) (ibig_rem_euclid_vv x y) (emod (ival x) (ival y)).
Proof. apply (rem_euclid_of x y _ (Ok (ibig_abs y))); auto using abs_val_ok. apply ibig_rem_vr_yields; auto. Qed.
Lemma ibig_rem_euclid_vr_yields : idiv_yields (ival y) (ibig_rem_euclid_vr x y) (emod (ival x) (ival y)).
Proof. apply (rem_euclid_of x y _ (ibig_abs_ref y)); auto using abs_ref_ok. apply ibig_rem_vr_yields; auto. Qed.
Lemma ibig_rem_euclid_rv_yields : idiv_yields (ival y) (ibig_rem_euclid_rv x y) (emod (ival x) (ival y)).
Proof. apply (rem_euclid_of x y _ (Ok (ibig_abs y))); auto using abs_val_ok. apply ibig_rem_rr_yields; auto. Qed.
Lemma ibig_rem_euclid_rr_yields : idiv_yields (ival y) (ibig_rem_euclid_rr x y) (emod (ival x) (ival y)).
Proof. apply (rem_euclid_of x y _ (ibig_abs_ref y)); auto using abs_ref_ok. apply ibig_rem_rr_yields; auto. Qed.
Lemma ibig_div_rem_euclid_vv_yields : idiv_rem_yields (ival y) (ibig_div_rem_euclid_vv x y) (ediv (ival x) (ival y)) (emod (ival x) (ival y)).
Proof. apply (div_rem_euclid_of x y _ (Ok (ibig_abs y))); auto using abs_val_ok. apply ibig_div_rem_vr_yields; auto. Qed.
Lemma ibig_div_rem_euclid_vr_yields : idiv_rem_yields (ival y) (ibig_div_rem_euclid_vr x y) (ediv (ival x) (ival y)) (emod (ival x) (ival y)).
Proof. apply (div_rem_euclid_of x y _ (ibig_abs_ref y)); auto using abs_ref_ok. apply ibig_div_rem_vr_yields; auto. Qed.
Lemma ibig_div_rem_euclid_rv_yields : idiv_rem_yields (ival y) (ibig_div_rem_euclid_rv x y) (ediv (ival x) (ival y)) (emod (ival x) (ival y)).
Proof. apply (div_rem_euclid_of x y _ (Ok (ibig_abs y))); auto using abs_val_ok. apply ibig_div_rem_rr_yields; auto. Qed.
Lemma ibig_div_rem_euclid_rr_yields : idiv_rem_yields (ival y) (ibig_div_rem_euclid_rr x y) (ediv (ival x) (ival y)) (emod (ival x) (ival y)).
Proof. apply (div_rem_euclid_of x y _ (ibig_abs_ref y)); auto using abs_ref_ok. apply ibig_div_rem_rr_yields; auto. Qed.
End EuclidForms.

End DivOpsProofs.
