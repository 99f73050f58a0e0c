(** Scratch memory: the slices are where they should be. *)
From Verif Require Import Model.Base Model.Words Model.Memory Model.FastDivide Model.Mul Model.Div Model.Buffer Model.RawMemory
  Spec.Val Spec.Chunk Proofs.Basics Proofs.BufferProofs Proofs.FastDivideProofs Proofs.MulProofs Proofs.Samples.

Section RawMemoryProofs.
Context {A : Arch} {AOK : ArchOk A}.

Lemma chk_usize_some z y : checked_usize z = Some y -> y = z /\ z < 2 ^ ubits.
Proof. unfold checked_usize, USIZE_MAX. destruct (Z.leb_spec z (2 ^ ubits - 1)); [|discriminate]. intros [= <-]. lia. Qed.
Lemma chk_usize_ok z : z < 2 ^ ubits -> checked_usize z = Some z.
Proof. intros H. unfold checked_usize, USIZE_MAX. destruct (Z.leb_spec z (2 ^ ubits - 1)); [auto|lia]. Qed.

Lemma padding_value s k : 0 <= k < ubits -> Z.land (wrapping (- s)) (2 ^ k - 1) = (- s) mod 2 ^ k.
Proof.
  intros K. replace (2 ^ k - 1) with (Z.ones k) by (rewrite Z.ones_equiv; lia).
  rewrite Z.land_ones by lia. unfold wrapping. symmetry.
  assert (2 ^ ubits = 2 ^ (ubits - k) * 2 ^ k) as E by (rewrite <- Z.pow_add_r by lia; f_equal; lia).
  assert (0 < 2 ^ k) by (apply Z.pow_pos_nonneg; lia). assert (0 < 2 ^ ubits) by (apply Z.pow_pos_nonneg; lia).
  apply Znumtheory.Zmod_div_mod; [lia|lia|]. exists (2 ^ (ubits - k)). auto.
Qed.

Lemma align_up s a : 0 < a -> let p := s + (- s) mod a in
  s <= p < s + a /\ (a | p) /\ forall q, s <= q -> (a | q) -> p <= q.
Proof.
  intros P p. pose proof (Z.mod_pos_bound (- s) a P) as M. unfold p.
  assert ((a | s + (- s) mod a)) as D.
  { exists (- ((- s) / a)). pose proof (Z.div_mod (- s) a ltac:(lia)). lia. }
  split; [lia|]. split; [exact D|]. intros q L [j E]. destruct D as [i D]. rewrite D, E in *.
  apply Z.mul_le_mono_nonneg_r; [lia|]. destruct (Z.le_gt_cases i j); [auto|]. exfalso. nia.
Qed.

Lemma find_spec t n m : type_ok t -> chunk_ok m -> 0 <= n ->
  match try_find_memory_for_slice t n m with
  | Some (p, e) => place t n p m /\ e = p + n * t_size t /\ (forall q, place t n q m -> p <= q) /\ p < m_start m + t_align t
  | None => forall q, ~ place t n q m
  end.
Proof.
  intros ((k & K & E) & S & D) [C1 C2] N. unfold try_find_memory_for_slice. rewrite E, padding_value by auto.
  assert (0 < 2 ^ k) as P by (apply Z.pow_pos_nonneg; lia).
  destruct (align_up (m_start m) (2 ^ k) P) as (U1 & U2 & U3). cbv zeta in *. set (p := m_start m + (- m_start m) mod 2 ^ k) in *.
  assert (0 <= n * t_size t) as NN by (apply Z.mul_nonneg_nonneg; lia).
  assert (forall q, place t n q m -> p <= q /\ q + n * t_size t <= m_end m) as Q.
  { intros q (Q1 & Q2 & Q3). rewrite E in Q2. split; [apply U3; auto|auto]. }
  destruct (checked_usize p) as [p'|] eqn:E1.
  2: { intros q H. apply Q in H. rewrite chk_usize_ok in E1 by lia. discriminate. }
  apply chk_usize_some in E1 as [-> L1].
  destruct (checked_usize (n * t_size t)) as [sz|] eqn:E2.
  2: { intros q H. apply Q in H. rewrite chk_usize_ok in E2 by lia. discriminate. }
  apply chk_usize_some in E2 as [-> L2].
  destruct (checked_usize (p + n * t_size t)) as [e|] eqn:E3.
  2: { intros q H. apply Q in H. rewrite chk_usize_ok in E3 by lia. discriminate. }
  apply chk_usize_some in E3 as [-> L3].
  destruct (Z.leb_spec (p + n * t_size t) (m_end m)) as [L|L].
  - split; [|split; [auto|split; [intros q H; apply Q in H; lia|lia]]]. split; [lia|]. rewrite E. auto.
  - intros q H. apply Q in H. lia.
Qed.

(** ** Contents *)
Lemma read_ext st st' p k : (forall a, p <= a < p + Z.of_nat k -> st a = st' a) -> read_bytes st p k = read_bytes st' p k.
Proof.
  revert p. induction k as [|k IH]; intros p H; [reflexivity|]. cbn [read_bytes]. rewrite (H p) by lia. rewrite (IH (p + 1)); [auto|].
  intros a L. apply H. lia.
Qed.

Lemma read_written st k v p q : p <= q -> 0 <= v < 256 ^ Z.of_nat k ->
  (forall a, q <= a < q + Z.of_nat k -> st a = (v / 256 ^ (a - q)) mod 256) -> read_bytes st q k = v.
Proof.
  intros _. revert q v. induction k as [|k IH]; intros q v V H; [cbn in V |- *; lia|]. cbn [read_bytes].
  rewrite Nat2Z.inj_succ in *. rewrite Z.pow_succ_r in V by lia.
  rewrite (H q) by lia. rewrite Z.sub_diag, Z.pow_0_r, Z.div_1_r.
  rewrite (IH (q + 1) (v / 256)).
  - pose proof (Z.div_mod v 256). lia.
  - split; [apply Z.div_pos; lia|]. apply Z.div_lt_upper_bound; lia.
  - intros a L. rewrite H by lia. f_equal. rewrite Z.div_div by (try lia; apply Z.pow_pos_nonneg; lia).
    f_equal. rewrite <- Z.pow_succ_r by lia. f_equal. lia.
Qed.

Lemma read_write st p size v : 0 < size -> 0 <= v < 256 ^ size -> read_bytes (write st p size v) p (Z.to_nat size) = v.
Proof.
  intros S V. apply (read_written _ _ v p p); [lia| |]; rewrite Z2Nat.id by lia; [auto|].
  intros a L. unfold write. destruct (Z.leb_spec p a), (Z.ltb_spec a (p + size)); cbn [andb]; lia.
Qed.

Lemma write_other st p size v a : ~ p <= a < p + size -> write st p size v a = st a.
Proof. intros N. unfold write. destruct (Z.leb_spec p a), (Z.ltb_spec a (p + size)); cbn [andb]; try reflexivity. lia. Qed.

(** Writing the elements [vs] from index [i] on. *)
Lemma write_same_each st p size i v n : write_same st p size i v n = write_each st p size i (repeat v n).
Proof. revert st i. induction n as [|n IH]; intros st i; cbn; [auto|]. apply IH. Qed.

Lemma write_each_app st p size i l1 l2 :
  write_each st p size i (l1 ++ l2) = write_each (write_each st p size i l1) p size (i + Z.of_nat (length l1)) l2.
Proof.
  revert st i. induction l1 as [|x l IH]; intros st i; [cbn; f_equal; lia|]. cbn [app write_each length]. rewrite IH. f_equal. lia.
Qed.

Lemma write_each_other st p size i vs a : 0 < size ->
  ~ p + i * size <= a < p + (i + Z.of_nat (length vs)) * size -> write_each st p size i vs a = st a.
Proof.
  intros S. revert st i. induction vs as [|v vs IH]; intros st i N; [reflexivity|]. cbn [write_each length] in *.
  rewrite IH; [apply write_other|]; intros C; apply N; rewrite Nat2Z.inj_succ; nia.
Qed.

Lemma write_each_read st p size i vs : 0 < size -> Forall (fun v => 0 <= v < 256 ^ size) vs ->
  map (fun j => read_bytes (write_each st p size i vs) (p + (i + Z.of_nat j) * size) (Z.to_nat size)) (seq 0 (length vs)) = vs.
Proof.
  intros S. revert st i. induction vs as [|v vs IH]; intros st i F; [reflexivity|]. cbn [length seq map write_each].
  inversion_clear F as [|? ? V F']. f_equal.
  - change (Z.of_nat 0) with 0. rewrite Z.add_0_r. rewrite (read_ext _ (write st (p + i * size) size v)); [apply read_write; auto|].
    intros a L. rewrite Z2Nat.id in L by lia. apply write_each_other; [auto|]. nia.
  - rewrite <- seq_shift, map_map. rewrite <- (IH (write st (p + i * size) size v) (i + 1) F') at 2.
    apply map_ext. intros j. do 2 f_equal. lia.
Qed.

Lemma read_slice_written st p size vs : 0 < size -> Forall (fun v => 0 <= v < 256 ^ size) vs ->
  read_slice (write_each st p size 0 vs) p size (length vs) = vs.
Proof. intros S F. apply (write_each_read st p size 0 vs S F). Qed.

(** All three forms find a place and write the elements one after the other. *)
Lemma allocate_form t r m st : request_ok t r ->
  allocate t r m st = allocate_slice_initialize t (count r) (fun ptr => write_each st ptr (t_size t) 0 (elements r)) m.
Proof.
  intros [F R]. unfold count. destruct r as [n v|source|n source v]; cbn [allocate elements].
  - unfold allocate_slice_fill, allocate_slice_initialize. rewrite repeat_length.
    destruct (try_find_memory_for_slice _ _ _) as [[p e]|]; [|auto]. rewrite write_same_each. reflexivity.
  - reflexivity.
  - unfold allocate_slice_copy_fill. rewrite check_true by (apply Nat.leb_le; auto).
    rewrite app_length, repeat_length. replace (length source + (n - length source))%nat with n by lia.
    unfold allocate_slice_initialize. destruct (try_find_memory_for_slice _ _ _) as [[p e]|]; [|auto].
    rewrite write_same_each, write_each_app. reflexivity.
Qed.

Lemma raw_allocate_spec t r m st : type_ok t -> chunk_ok m -> request_ok t r ->
  match allocate t r m st with
  | Ok (p, m', st') =>
      place t (count r) p m /\ p < m_start m + t_align t /\ m' = mkMemory (p + count r * t_size t) (m_end m) /\
      read_slice st' p (t_size t) (length (elements r)) = elements r /\
      (forall a, ~ p <= a < p + count r * t_size t -> st' a = st a)
  | Panic q => q = Internal /\ forall p, ~ place t (count r) p m
  end.
Proof.
  intros T C R. rewrite allocate_form by auto. unfold allocate_slice_initialize.
  pose proof (find_spec t (count r) m T C ltac:(unfold count; lia)) as F.
  destruct (try_find_memory_for_slice _ _ _) as [[p e]|]; [|auto]. destruct F as (F1 & -> & _ & F2).
  destruct T as (_ & S & _). destruct R as [R _].
  split; [auto|]. split; [auto|]. split; [auto|]. split; [apply read_slice_written; auto|].
  intros a N. apply write_each_other; [auto|]. rewrite Z.mul_0_l, Z.add_0_r. auto.
Qed.

Lemma read_slice_ext st st' p size n : 0 < size -> (forall a, p <= a < p + Z.of_nat n * size -> st a = st' a) ->
  read_slice st p size n = read_slice st' p size n.
Proof.
  intros S H. unfold read_slice. apply map_ext_in. intros i I. apply in_seq in I. apply read_ext.
  intros a L. rewrite Z2Nat.id in L by lia. apply H. nia.
Qed.

Lemma allocate_all_spec rs : Forall (fun x => type_ok (fst x) /\ request_ok (fst x) (snd x)) rs ->
  forall m st ptrs m' st', chunk_ok m -> allocate_all rs m st = Ok (ptrs, m', st') ->
  length ptrs = length rs /\ Forall (good st' m) (combine rs ptrs) /\
  ForallOrdPairs apart2 (combine rs ptrs) /\
  chunk_ok m' /\ m_start m <= m_start m' /\ m_end m' = m_end m /\
  (forall a, ~ m_start m <= a < m_start m' -> st' a = st a) /\
  Forall (fun x => snd x + count (snd (fst x)) * t_size (fst (fst x)) <= m_start m') (combine rs ptrs).
Proof.
  induction rs as [|[t r] rs IH]; intros F m st ptrs m' st' C E; cbn [allocate_all] in E.
  - injection E as <- <- <-. repeat split; try constructor; try (apply C || reflexivity || lia).
  - inversion_clear F as [|? ? [T R] F']. cbn [fst snd] in T, R.
    pose proof (raw_allocate_spec t r m st T C R) as S. destruct (allocate t r m st) as [[[p m1] st1]|]; [|discriminate].
    cbn [bind] in E. destruct S as (P & _ & -> & V & O).
    destruct (allocate_all rs _ st1) as [[[ps m2] st2]|] eqn:X; [|discriminate]. cbn [bind] in E. injection E as <- <- <-.
    pose proof P as (P1 & P2 & P3). destruct T as (T1 & T2 & T3).
    assert (0 <= count r * t_size t) as NN by (unfold count; apply Z.mul_nonneg_nonneg; lia).
    assert (chunk_ok (mkMemory (p + count r * t_size t) (m_end m))) as C1 by (destruct C; split; cbn; lia).
    destruct (IH F' _ _ _ _ _ C1 X) as (H1 & H2 & H3 & H4 & H5 & H6 & H7 & H8). cbn [m_start m_end] in *.
    split; [cbn; lia|]. split; [|split; [|split; [auto|split; [lia|split; [auto|split]]]]].
    + constructor.
      * split; [exact P|]. cbn [fst snd]. rewrite <- V at 2. apply read_slice_ext; [auto|]. intros a L. apply H7. unfold count in *. lia.
      * eapply Forall_impl; [|exact H2]. intros y ((G1 & G2 & G3) & G4). split; [|exact G4]. repeat split; auto. cbn in G1. lia.
    + constructor; [|exact H3]. eapply Forall_impl; [|exact H2]. intros y ((G1 & G2 & G3) & G4). left. cbn in *. exact G1.
    + intros a N. rewrite H7 by lia. apply O. lia.
    + constructor; [exact H5|exact H8].
Qed.

(** ** Counting words is enough *)

Lemma counted_form t r mem : request_ok t r -> counted r mem = (mem' <- alloc (length (elements r)) mem ;; Ok (elements r, mem')).
Proof.
  intros [F R]. destruct r as [n v|source|n source v]; cbn [counted elements].
  - rewrite repeat_length. reflexivity.
  - reflexivity.
  - unfold alloc_copy_fill. rewrite check_true by (apply Nat.leb_le; auto). rewrite app_length, repeat_length.
    replace (length source + (n - length source))%nat with n by lia. reflexivity.
Qed.

Lemma tracks_alloc t r m mem st : type_ok t -> tracks t m mem -> request_ok t r ->
  match counted r mem with
  | Ok (ws, mem') => exists p m' st', allocate t r m st = Ok (p, m', st') /\ read_slice st' p (t_size t) (length ws) = ws /\ tracks t m' mem'
  | Panic q => q = Internal /\ (elements r <> [] -> allocate t r m st = Panic Internal)
  end.
Proof.
  intros T (C & L & D) R. rewrite (counted_form t) by auto. unfold alloc.
  pose proof (raw_allocate_spec t r m st T C R) as S. set (n := Z.of_nat (length (elements r))) in *. change (count r) with n in S.
  pose proof T as (_ & TS & TD).
  destruct (Z.leb_spec n mem) as [NM|NM]; cbn [andb]; [destruct (Z.ltb_spec 0 mem) as [PM|PM]|]; cbn [bind].
  - assert (place t n (m_start m) m) as P by (split; [lia|]; split; [auto|]; nia).
    destruct (allocate t r m st) as [[[p m'] st']|q]; [|destruct S as [_ S]; destruct (S _ P)].
    destruct S as ((P1 & P2 & P3) & S2 & -> & S4 & _). exists p, (mkMemory (p + n * t_size t) (m_end m)), st'.
    split; [auto|]. split; [auto|].
    assert (p = m_start m) as ->.
    { specialize (D PM). destruct D as [i D]. destruct P2 as [j P2]. destruct T as ((k & K & E) & _).
      assert (0 < t_align t) by (rewrite E; apply Z.pow_pos_nonneg; lia). rewrite D, P2 in *. f_equal. nia. }
    split; [|split].
    + destruct C. split; cbn; lia.
    + cbn. lia.
    + intros _. cbn. apply Z.divide_add_r; [auto|]. apply Z.divide_mul_r, TD.
  - split; [auto|]. intros NE. exfalso. assert (0 < n); [|lia]. destruct (elements r); [congruence|cbn in n; lia].
  - split; [auto|]. intros NE. destruct (allocate t r m st) as [[[p m'] st']|q]; [|destruct S as [-> _]; auto].
    destruct S as ((P1 & P2 & P3) & _). exfalso. nia.
Qed.

(** ** Layouts *)
Lemma align_pos t : type_ok t -> 0 < t_align t.
Proof. intros ((k & K & ->) & _). apply Z.pow_pos_nonneg; lia. Qed.

Lemma isize_align t : type_ok t -> (t_align t | ISIZE_MAX + 1).
Proof.
  intros ((k & K & ->) & _). unfold ISIZE_MAX. exists (2 ^ (ubits - 1 - k)). rewrite <- Z.pow_add_r by lia.
  replace (ubits - 1 - k + k) with (ubits - 1) by lia. lia.
Qed.

Lemma usize_isize : 2 ^ ubits = 2 * (ISIZE_MAX + 1).
Proof. pose proof ubits_ge. unfold ISIZE_MAX. replace ubits with (Z.succ (ubits - 1)) at 1 by lia. rewrite Z.pow_succ_r by lia. lia. Qed.

Lemma pow2_test_ok k : 0 <= k -> (0 <? 2 ^ k) && (Z.land (2 ^ k) (2 ^ k - 1) =? 0) = true.
Proof.
  intros K. assert (0 < 2 ^ k) by (apply Z.pow_pos_nonneg; lia). rewrite (proj2 (Z.ltb_lt _ _)) by auto. cbn [andb].
  replace (2 ^ k - 1) with (Z.ones k) by (rewrite Z.ones_equiv; lia). rewrite Z.land_ones, Z.mod_same by lia. reflexivity.
Qed.

Lemma from_size_align_words t mem : type_ok t -> 0 <= mem ->
  from_size_align (mem * t_size t) (t_align t) = if mem * t_size t <=? ISIZE_MAX then Some (mkLayout (mem * t_size t) (t_align t)) else None.
Proof.
  intros T M. pose proof (isize_align t T) as I. pose proof (align_pos t T) as P. destruct T as ((k & K & E) & S & D). unfold from_size_align.
  rewrite E at 1 2 3. rewrite pow2_test_ok by lia. cbn [andb].
  destruct (Z.leb_spec (mem * t_size t) ISIZE_MAX), (Z.leb_spec (mem * t_size t) (ISIZE_MAX - (t_align t - 1))); try reflexivity; exfalso; [|lia].
  destruct I as [i I]. assert ((t_align t | mem * t_size t)) as [j J] by (apply Z.divide_mul_r, D). rewrite J in *.
  assert (j < i) by nia. nia.
Qed.

Lemma array_layout_words t mem : type_ok t -> 0 <= mem ->
  array_layout t mem = if mem * t_size t <=? ISIZE_MAX then Ok (mkLayout (mem * t_size t) (t_align t)) else Panic OutOfMemory.
Proof.
  intros T M. unfold array_layout, layout_array. pose proof usize_isize.
  destruct (Z.leb_spec (mem * t_size t) ISIZE_MAX) as [L|L].
  - rewrite chk_usize_ok by (unfold ISIZE_MAX in *; lia). rewrite from_size_align_words by auto.
    rewrite (proj2 (Z.leb_le _ _)) by auto. reflexivity.
  - destruct (checked_usize (mem * t_size t)) as [x|] eqn:E; [|reflexivity]. apply chk_usize_some in E as [-> _].
    rewrite from_size_align_words by auto. rewrite (proj2 (Z.leb_gt _ _)) by auto. reflexivity.
Qed.

Lemma zero_layout_ok : zero_layout = Ok (mkLayout 0 1).
Proof.
  unfold zero_layout, from_size_align. change (Z.land 1 (1 - 1)) with 0. cbn [Z.ltb Z.eqb andb]. change (0 <? 1) with true. cbn [andb].
  assert (0 <= ISIZE_MAX - (1 - 1)); [|rewrite (proj2 (Z.leb_le _ _)) by auto; reflexivity].
  pose proof ubits_ge. unfold ISIZE_MAX. assert (0 < 2 ^ (ubits - 1)) by (apply Z.pow_pos_nonneg; lia). lia.
Qed.

Lemma isize_pos : 0 < ISIZE_MAX.
Proof.
  pose proof ubits_ge. unfold ISIZE_MAX. assert (2 ^ 1 <= 2 ^ (ubits - 1)) by (apply Z.pow_le_mono_r; lia). lia.
Qed.

Lemma lays_array t mem : type_ok t -> 0 <= mem -> lays_out t (array_layout t mem) mem.
Proof.
  intros T M. rewrite array_layout_words by auto. split; intros H; [rewrite (proj2 (Z.leb_le _ _)) by auto|rewrite (proj2 (Z.leb_gt _ _)) by auto; auto].
  eexists. split; [reflexivity|]. split; cbn; auto.
Qed.

Lemma lays_zero t : lays_out t zero_layout 0.
Proof.
  rewrite zero_layout_ok. pose proof isize_pos. split; [|cbn; lia]. intros _. eexists. split; [reflexivity|]. split; cbn; auto.
Qed.

Lemma from_align_1 : from_size_align 0 1 = Some (mkLayout 0 1).
Proof. pose proof zero_layout_ok as H. unfold zero_layout in H. destruct (from_size_align 0 1); [injection H as ->; auto|discriminate]. Qed.

Lemma lays_max t a b x y : type_ok t -> 0 <= a -> 0 <= b -> for_words t a x -> for_words t b y -> lays_out t (max_layout x y) (Z.max a b).
Proof.
  intros T PA PB [X1 X2] [Y1 Y2]. pose proof (align_pos t T) as P. pose proof T as (_ & S & _). unfold max_layout. rewrite X1, Y1.
  rewrite Z.mul_max_distr_nonneg_r by lia.
  destruct (Z.eq_dec (Z.max (l_align x) (l_align y)) (t_align t)) as [E|N].
  - rewrite E, from_size_align_words by (auto; lia). split; intros H; [rewrite (proj2 (Z.leb_le _ _)) by auto|rewrite (proj2 (Z.leb_gt _ _)) by auto; auto].
    eexists. split; [reflexivity|]. split; cbn; auto.
  - assert (a = 0 /\ b = 0 /\ l_align x = 1 /\ l_align y = 1) as (-> & -> & -> & ->) by lia.
    change (Z.max 0 0) with 0. change (Z.max 1 1) with 1. rewrite Z.mul_0_l, from_align_1.
    pose proof isize_pos. split; [|lia]. intros _. eexists. split; [reflexivity|]. split; cbn; auto.
Qed.

Lemma padding_0 s k : 0 <= k -> (2 ^ k | s) -> padding_needed_for s (2 ^ k) = 0.
Proof.
  intros K [i E]. unfold padding_needed_for. replace (s + 2 ^ k - 1) with (s + (2 ^ k - 1)) by lia.
  assert (0 < 2 ^ k) by (apply Z.pow_pos_nonneg; lia).
  replace (2 ^ k - 1) with (Z.ones k) at 2 by (rewrite Z.ones_equiv; lia). rewrite Z.ldiff_ones_r by lia.
  rewrite Z.shiftl_mul_pow2, Z.shiftr_div_pow2 by lia. rewrite E, Z.add_comm, Z.div_add, Z.div_small by lia. lia.
Qed.

Lemma lays_add t a b x y : type_ok t -> 0 <= a -> 0 <= b -> l_size x = a * t_size t -> l_align x = t_align t -> for_words t b y ->
  lays_out t (add_layout x y) (a + b).
Proof.
  intros T PA PB X1 X2 [Y1 Y2]. pose proof (align_pos t T) as P. unfold lays_out, add_layout, layout_extend. pose proof T as ((k & K & E) & S & D).
  assert (padding_needed_for (l_size x) (l_align y) = 0) as ->.
  { destruct Y2 as [->|[_ ->]].
    - rewrite E. apply padding_0; [lia|]. rewrite X1, <- E. apply Z.divide_mul_r, D.
    - apply (padding_0 _ 0); [lia|]. exists (l_size x). rewrite Z.pow_0_r. lia. }
  rewrite Z.add_0_r, X1, Y1, X2, Z.mul_add_distr_r. replace (Z.max (t_align t) (l_align y)) with (t_align t) by lia.
  assert (0 <= a * t_size t) by (apply Z.mul_nonneg_nonneg; lia). assert (0 <= b * t_size t) by (apply Z.mul_nonneg_nonneg; lia).
  pose proof usize_isize as U. split; intros H1.
  - rewrite !chk_usize_ok by (unfold ISIZE_MAX in *; lia). rewrite <- Z.mul_add_distr_r, from_size_align_words by (auto; lia).
    rewrite (proj2 (Z.leb_le _ _)) by lia. eexists. split; [reflexivity|]. split; cbn; auto.
  - destruct (checked_usize (a * t_size t)) as [o|] eqn:E1; [|reflexivity]. apply chk_usize_some in E1 as [-> _].
    destruct (checked_usize (a * t_size t + b * t_size t)) as [o|] eqn:E1; [|reflexivity]. apply chk_usize_some in E1 as [-> _].
    rewrite <- Z.mul_add_distr_r, from_size_align_words by (auto; lia). rewrite (proj2 (Z.leb_gt _ _)) by lia. reflexivity.
Qed.

Lemma clog_bound n : Z.of_nat n <= 16 * MAX_LEN -> 0 <= ceil_log_2_usize n <= ubits.
Proof.
  intros H. rewrite clog_bitlen. pose proof ubits_ge. pose proof MAX_LEN_usize.
  split; [apply bitlen_nonneg|].
  destruct n as [|n]; [change (bitlen (Z.of_nat 0 - 1)) with 1; lia|]. apply bitlen_le; lia.
Qed.

(** Room for a few more words than the address space has bits. *)
Lemma usize_room : 16 * MAX_LEN < 2 ^ ubits /\ 2 ^ 12 * ubits <= 2 ^ ubits.
Proof. split; [apply MAX_LEN_usize|]. destruct ubits_cases as [-> | [-> | ->]]; vm_compute; discriminate. Qed.

Lemma lays_mul t n : type_ok t -> Z.of_nat n <= MAX_LEN -> lays_out t (mul_layout t n) (mul_memory n).
Proof.
  intros T H. unfold mul_layout, mul_memory. pose proof MAX_LEN_ge. pose proof (clog_bound n ltac:(lia)) as C. pose proof usize_room as (R1 & R2).
  pose proof ubits_ge.
  destruct (n <=? MAX_LEN_SIMPLE)%nat; [apply lays_zero|]. destruct (n <=? MAX_LEN_KARATSUBA)%nat.
  - unfold karatsuba_layout, karatsuba_memory, usize_chk. repeat (rewrite checked_ok by lia; cbn [bind]). apply lays_array; [auto|lia].
  - unfold toom_3_layout, toom_3_memory, usize_chk. repeat (rewrite checked_ok by lia; cbn [bind]). apply lays_array; [auto|lia].
Qed.

Lemma mul_memory_bound n : Z.of_nat n <= MAX_LEN -> 0 <= mul_memory n <= 4 * Z.of_nat n + 13 * ubits.
Proof.
  intros H. pose proof MAX_LEN_ge. pose proof (clog_bound n ltac:(lia)) as C. unfold mul_memory, karatsuba_memory, toom_3_memory.
  destruct (n <=? MAX_LEN_SIMPLE)%nat; [lia|]. destruct (n <=? MAX_LEN_KARATSUBA)%nat; lia.
Qed.

Lemma lays_div t n k : type_ok t -> (2 <= k <= n)%nat -> Z.of_nat n <= 2 * MAX_LEN ->
  exists mem, div_memory n k = Ok mem /\ lays_out t (div_layout t n k) mem /\ (mem = 0 \/ mem = mul_memory (Nat.min (k / 2) (n - k))).
Proof.
  intros T K H. unfold div_layout, div_memory. rewrite !check_true by (rewrite andb_true_iff, !Nat.leb_le; lia).
  destruct ((k <=? DIV_MAX_LEN_SIMPLE) || (n - k <=? DIV_MAX_LEN_SIMPLE))%nat.
  - exists 0. split; [auto|]. split; [apply lays_zero|auto].
  - eexists. split; [reflexivity|]. split; [|auto]. apply lays_mul; [auto|]. pose proof (Nat.div_lt_upper_bound k 2 (S (k / 2))).
    pose proof (Nat.mul_div_le k 2 ltac:(lia)). lia.
Qed.

Lemma word_bytes t m : word_type t -> 0 <= m -> m <= MAX_LEN -> 8 * (m * t_size t) < 2 ^ ubits /\ 2 <= t_size t <= 8.
Proof.
  intros [_ E] P L. rewrite E. pose proof MAX_LEN_facts as (_ & F & _).
  assert (8 * (wbits / 8) = wbits /\ 2 <= wbits / 8 <= 8) as [W1 W2] by (destruct wbits_cases as [-> | [-> | ->]]; vm_compute; intuition discriminate).
  split; [|auto]. nia.
Qed.

Lemma mul_fits t n : word_type t -> 2 * Z.of_nat n <= MAX_LEN + 4 -> mul_memory n * t_size t <= ISIZE_MAX.
Proof.
  intros W H. pose proof MAX_LEN_ge. destruct (word_bytes t MAX_LEN W) as [B1 B2]; [lia..|].
  pose proof (mul_memory_bound n ltac:(lia)) as M. pose proof usize_isize. pose proof usize_room as (R1 & R2). pose proof ubits_ge.
  assert (mul_memory n * t_size t <= (2 * MAX_LEN + 8 + 13 * ubits) * t_size t) by (apply Z.mul_le_mono_nonneg_r; lia).
  assert ((8 + 13 * ubits) * t_size t <= (8 + 13 * ubits) * 8) by (apply Z.mul_le_mono_nonneg_l; lia).
  lia.
Qed.

Lemma div_fits t n k : word_type t -> (2 <= k <= n)%nat -> Z.of_nat n <= MAX_LEN + 4 ->
  exists mem l, div_memory n k = Ok mem /\ div_layout t n k = Ok l /\ for_words t mem l.
Proof.
  intros W K H. pose proof MAX_LEN_ge. destruct (lays_div t n k (proj1 W) K ltac:(lia)) as (mem & E & [L _] & M).
  destruct L as (l & E2 & FW); [|exists mem, l; auto].
  destruct M as [->| ->]; [pose proof isize_pos; lia|]. apply mul_fits; [auto|].
  pose proof (Nat.mul_div_le k 2 ltac:(lia)). lia.
Qed.

(** Multiplication in a ring, for a modulus of [n] words. *)
Lemma lays_ring_mul t n : word_type t -> (2 <= n)%nat -> Z.of_nat n <= MAX_LEN ->
  exists d, div_memory (2 * n) n = Ok d /\ lays_out t (ring_mul_layout t n) (2 * Z.of_nat n + Z.max (mul_memory n) d) /\ 0 <= d.
Proof.
  intros W N H. pose proof MAX_LEN_ge. pose proof (proj1 W) as T. destruct (word_bytes t MAX_LEN W) as [B1 B2]; [lia..|].
  destruct (lays_div t (2 * n) n T ltac:(lia) ltac:(lia)) as (d & E & [D1 D2] & M). exists d. split; [auto|].
  assert (Nat.min (n / 2) (2 * n - n) = n / 2)%nat as EM by (pose proof (Nat.mul_div_le n 2 ltac:(lia)); lia). rewrite EM in M.
  assert (Z.of_nat (n / 2) <= MAX_LEN) as L2 by (pose proof (Nat.mul_div_le n 2 ltac:(lia)); lia).
  assert (0 <= d) as PD by (destruct M as [-> | ->]; [lia|apply (mul_memory_bound (n / 2) L2)]).
  pose proof (mul_memory_bound n H) as PM. split; [|auto]. unfold ring_mul_layout.
  pose proof usize_room as (R1 & R2). unfold usize_chk. rewrite checked_ok by lia. cbn [bind].
  set (mm := mul_memory n) in *. set (s := t_size t) in *.
  assert (0 <= 2 * Z.of_nat n * s) by (apply Z.mul_nonneg_nonneg; lia).
  assert (0 <= mm * s) by (apply Z.mul_nonneg_nonneg; lia). assert (0 <= d * s) by (apply Z.mul_nonneg_nonneg; lia).
  assert ((2 * Z.of_nat n + Z.max mm d) * s = 2 * Z.of_nat n * s + Z.max (mm * s) (d * s)) as EX
    by (rewrite Z.mul_add_distr_r, <- Z.mul_max_distr_nonneg_r by lia; reflexivity).
  unfold lays_out. fold s. rewrite EX.
  rewrite array_layout_words by (auto; lia). fold s.
  destruct (Z.leb_spec (2 * Z.of_nat n * s) ISIZE_MAX) as [L|L]; cbn [bind]; [|split; [lia|auto]].
  destruct (lays_mul t n T H) as [M1 M2]. fold s in M1, M2. fold mm in M1, M2.
  destruct (Z.le_gt_cases (mm * s) ISIZE_MAX) as [L1|L1].
  2: { rewrite M2 by lia. split; [lia|auto]. }
  destruct (M1 L1) as (lm & -> & WM). cbn [bind].
  fold s in D1, D2. destruct (Z.le_gt_cases (d * s) ISIZE_MAX) as [L3|L3].
  2: { rewrite D2 by lia. split; [lia|auto]. }
  destruct (D1 L3) as (ld & -> & WD). cbn [bind].
  destruct (lays_max t mm d lm ld T ltac:(lia) PD WM WD) as [X1 _]. fold s in X1. rewrite <- Z.mul_max_distr_nonneg_r in X1 by lia.
  destruct X1 as (lx & -> & WX); [lia|]. cbn [bind].
  pose proof (lays_add t (2 * Z.of_nat n) (Z.max mm d) (mkLayout (2 * Z.of_nat n * s) (t_align t)) lx T ltac:(lia) ltac:(lia) eq_refl eq_refl WX) as [Y1 Y2].
  fold s in Y1, Y2. rewrite EX in Y1, Y2. split; auto.
Qed.

Lemma lays_ring_pow t n window_len : word_type t -> (2 <= n)%nat -> Z.of_nat n <= MAX_LEN -> 1 <= window_len ->
  exists d, div_memory (2 * n) n = Ok d /\
  lays_out t (ring_pow_layout t n window_len) ((2 ^ (window_len - 1) - 1) * Z.of_nat n + (2 * Z.of_nat n + Z.max (mul_memory n) d)).
Proof.
  intros W N H WL. pose proof (proj1 W) as T. destruct (lays_ring_mul t n W N H) as (d & E & [R1 R2] & PD). exists d. split; [auto|].
  unfold ring_pow_layout. pose proof (mul_memory_bound n H) as PM. set (x := 2 * Z.of_nat n + Z.max (mul_memory n) d) in *.
  assert (0 <= x) as PX by lia. assert (0 < 2 ^ (window_len - 1)) as PW by (apply Z.pow_pos_nonneg; lia).
  set (k := (2 ^ (window_len - 1) - 1) * Z.of_nat n). assert (0 <= k) as PK by (apply Z.mul_nonneg_nonneg; lia).
  clearbody x k. pose proof T as (_ & TS & _). unfold lays_out in *. rewrite Z.mul_add_distr_r.
  assert (0 <= x * t_size t) by (apply Z.mul_nonneg_nonneg; lia). assert (k <= k * t_size t) by nia. pose proof usize_isize.
  destruct (checked_usize k) as [k'|] eqn:EK; cbn [or_out_of_memory bind].
  2: { unfold checked_usize, USIZE_MAX in EK. destruct (Z.leb_spec k (2 ^ ubits - 1)); [discriminate|]. split; [|auto].
       pose proof isize_pos. lia. }
  apply chk_usize_some in EK as [-> _]. rewrite array_layout_words by auto.
  destruct (Z.leb_spec (k * t_size t) ISIZE_MAX) as [L|L]; cbn [bind]; [|split; [lia|auto]].
  destruct (Z.le_gt_cases (x * t_size t) ISIZE_MAX) as [L1|L1]; [|rewrite R2 by lia; split; [lia|auto]].
  destruct (R1 L1) as (l & -> & FW). cbn [bind].
  destruct (lays_add t k x (mkLayout (k * t_size t) (t_align t)) l T PK PX eq_refl eq_refl FW) as [Y1 Y2].
  rewrite Z.mul_add_distr_r in Y1, Y2. split; auto.
Qed.

Lemma mul_layout_fits t n : word_type t -> 2 * Z.of_nat n <= MAX_LEN + 4 -> exists l, mul_layout t n = Ok l /\ for_words t (mul_memory n) l.
Proof. intros W H. pose proof MAX_LEN_ge. apply (lays_mul t n (proj1 W) ltac:(lia)). apply mul_fits; auto. Qed.

Lemma ring_mul_fits t n : word_type t -> (2 <= n)%nat -> Z.of_nat n <= MAX_LEN -> 2 * Z.of_nat n <= MAX_LEN \/ ubits = 64 ->
  exists d l, div_memory (2 * n) n = Ok d /\ ring_mul_layout t n = Ok l /\ for_words t (2 * Z.of_nat n + Z.max (mul_memory n) d) l.
Proof.
  intros W N HL H. pose proof MAX_LEN_ge. destruct (lays_ring_mul t n W N ltac:(lia)) as (d & E & [R _] & PD).
  destruct R as (l & El & FW); [|exists d, l; auto].
  destruct (lays_div t (2 * n) n (proj1 W) ltac:(lia) ltac:(lia)) as (d' & E' & _ & M). rewrite E in E'. injection E' as <-.
  pose proof (mul_memory_bound n ltac:(lia)) as PM.
  assert (d <= 2 * Z.of_nat n + 13 * ubits) as LD.
  { pose proof ubits_ge. destruct M as [-> | ->]; [lia|]. pose proof (Nat.mul_div_le n 2 ltac:(lia)).
    pose proof (mul_memory_bound (Nat.min (n / 2) (2 * n - n)) ltac:(lia)). lia. }
  destruct (word_bytes t MAX_LEN W) as [B1 B2]; [lia..|]. pose proof usize_isize. pose proof usize_room as (R1 & R2). pose proof ubits_ge.
  assert ((2 * Z.of_nat n + Z.max (mul_memory n) d) * t_size t <= (6 * Z.of_nat n + 13 * ubits) * t_size t) by (apply Z.mul_le_mono_nonneg_r; lia).
  assert (6 * Z.of_nat n * t_size t <= 3 * 2 ^ (ubits - 3)) as L6.
  { pose proof (Z.pow_succ_r 2 (ubits - 3)) as P1. replace (2 ^ ubits) with (8 * 2 ^ (ubits - 3)) in *
      by (change 8 with (2 ^ 3); rewrite <- Z.pow_add_r by lia; f_equal; lia).
    destruct H as [H|H].
    - assert (6 * Z.of_nat n * t_size t <= 3 * MAX_LEN * t_size t) by (apply Z.mul_le_mono_nonneg_r; lia). lia.
    - assert (6 * Z.of_nat n * t_size t <= 6 * MAX_LEN * t_size t) as L1 by (apply Z.mul_le_mono_nonneg_r; lia).
      etransitivity; [exact L1|]. clear - AOK W H. destruct W as [_ ->]. unfold MAX_LEN, NTT_MAX_ORDER, USIZE_MAX. rewrite H.
      destruct wbits_cases as [-> | [-> | ->]]; vm_compute; discriminate. }
  replace (2 ^ ubits) with (8 * 2 ^ (ubits - 3)) in *
      by (change 8 with (2 ^ 3); rewrite <- Z.pow_add_r by lia; f_equal; lia).
  assert ((13 * ubits) * t_size t <= (13 * ubits) * 8) by (apply Z.mul_le_mono_nonneg_l; lia).
  lia.
Qed.

Lemma ring_mul_out_of_memory t : word_type t -> 2 ^ ubits <= wbits * (MAX_LEN + 4) -> ring_mul_layout t (Z.to_nat MAX_LEN) = Panic OutOfMemory.
Proof.
  intros W BIG. pose proof MAX_LEN_facts as (M1 & M2 & M3).
  destruct (lays_ring_mul t (Z.to_nat MAX_LEN) W ltac:(lia) ltac:(lia)) as (d & E & [_ R] & PD). apply R.
  assert (4 * MAX_LEN <= mul_memory (Z.to_nat MAX_LEN)) as L.
  { unfold mul_memory, toom_3_memory. rewrite (proj2 (Nat.leb_gt _ _)) by (unfold MAX_LEN_SIMPLE; lia).
    rewrite (proj2 (Nat.leb_gt _ _)) by (unfold MAX_LEN_KARATSUBA; lia).
    pose proof (clog_bound (Z.to_nat MAX_LEN) ltac:(lia)). lia. }
  rewrite Z2Nat.id by lia. destruct W as [T ->]. pose proof (proj1 (proj2 T)) as TS. pose proof usize_isize as U.
  assert (8 * (wbits / 8) = wbits) as W8 by (destruct wbits_cases as [-> | [-> | ->]]; reflexivity).
  assert (0 < wbits / 8) by (pose proof wbits_ge; lia).
  assert (6 * MAX_LEN * (wbits / 8) <= (2 * MAX_LEN + Z.max (mul_memory (Z.to_nat MAX_LEN)) d) * (wbits / 8)) by (apply Z.mul_le_mono_nonneg_r; lia).
  nia.
Qed.

Lemma buffer_fits t c : word_type t -> 0 <= c <= MAX_LEN + 4 -> array_layout t c = Ok (mkLayout (c * t_size t) (t_align t)).
Proof.
  intros W H. rewrite array_layout_words by (apply W || lia).
  destruct (word_bytes t MAX_LEN W) as [B1 B2]; [pose proof MAX_LEN_ge; lia..|].
  rewrite (proj2 (Z.leb_le _ _)); [auto|]. pose proof usize_isize. pose proof usize_room. pose proof ubits_ge.
  assert (c * t_size t <= (MAX_LEN + 4) * t_size t) by (apply Z.mul_le_mono_nonneg_r; lia). lia.
Qed.

(** ** A block holds the words that were asked for *)
Lemma block_tracks t l mem ptr a : type_ok t -> 0 <= mem -> for_words t mem l ->
  allocation_new l ptr = Ok a -> (allocator_called l = true -> block_ok l ptr) -> tracks t (chunk_of a) mem.
Proof.
  intros T PM [S AL] E K. unfold allocation_new in E. unfold allocator_called in K. pose proof T as ((k & HK & EK) & TS & TD).
  assert (0 < t_align t < 2 ^ ubits) as PA by (rewrite EK; split; [apply Z.pow_pos_nonneg; lia|apply Z.pow_lt_mono_r; lia]).
  assert (1 < 2 ^ ubits) by (pose proof ubits_ge; apply (Z.pow_gt_1 2 ubits); lia).
  destruct (Z.eqb_spec (l_size l) 0) as [Z0|NZ].
  - injection E as <-. assert (mem = 0) as -> by nia. unfold tracks, chunk_ok, chunk_of, wrapping. cbn.
    rewrite Z0, Z.add_0_r. rewrite Z.mod_small by lia. split; [lia|]. split; [lia|]. lia.
  - destruct (ISIZE_MAX <? l_size l); [discriminate|]. destruct (ptr =? 0); [discriminate|]. injection E as <-.
    destruct (K eq_refl) as (K1 & K2 & K3). assert (0 < mem) by nia. assert (l_align l = t_align t) as EA by lia.
    assert (0 <= l_size l) by (rewrite S; apply Z.mul_nonneg_nonneg; lia).
    unfold tracks, chunk_ok, chunk_of, wrapping. cbn [m_start m_end a_start a_layout]. rewrite Z.mod_small by lia.
    split; [lia|]. split; [lia|]. intros _. rewrite <- EA. auto.
Qed.

Lemma block_released l ptr a : allocation_new l ptr = Ok a ->
  deallocates a = allocator_called l /\ a_layout a = l /\ (deallocates a = true -> a_start a = ptr).
Proof.
  unfold allocation_new, deallocates, allocator_called. intros E. destruct (Z.eqb_spec (l_size l) 0) as [Z0|NZ].
  - injection E as <-. cbn. rewrite Z0. repeat split. discriminate.
  - destruct (ISIZE_MAX <? l_size l); [discriminate|]. destruct (ptr =? 0); [discriminate|]. injection E as <-. cbn.
    rewrite (proj2 (Z.eqb_neq _ _)) by auto. auto.
Qed.
End RawMemoryProofs.

Lemma ring_mul_refuted :
  exists (A : Arch) (AOK : ArchOk A) (n : nat), wbits = 32 /\ ubits = 32 /\ (2 <= n)%nat /\ Z.of_nat n <= MAX_LEN /\
  forall t, word_type t -> ring_mul_layout t n = Panic OutOfMemory.
Proof.
  exists arch32, arch32_ok, (Z.to_nat (MAX_LEN (A := arch32))). split; [reflexivity|]. split; [reflexivity|].
  pose proof (MAX_LEN_ge (A := arch32)). split; [lia|]. split; [lia|]. intros t W. apply ring_mul_out_of_memory; [auto|].
  vm_compute. discriminate.
Qed.
