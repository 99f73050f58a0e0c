(** Multiplication of any lengths (src/mul/mod.rs, helpers.rs): exactness and
    sufficiency of the announced scratch memory. *)
From Verif Require Import Proofs.Basics Proofs.AddProofs Proofs.FastDivideProofs
  Proofs.MulWordProofs Proofs.MulProofs.
From Verif Require Import Model.Add Model.Shift Model.DivWord Model.Memory Model.Mul.

Section MulFull.
Context {A : Arch} {AOK : ArchOk A}.

(** * Same-length multiplication *)

(** Scratch need at Toom-3 depth [k]; operands of up to [189 * 3^k + 3] words
    need at most [k] nested Toom-3 levels. *)
Definition need_at (k n : nat) : Z :=
  if (n <=? 192)%nat then mul_memory n else 4 * Z.of_nat n + 20 * Z.of_nat k.

Lemma mul_memory_small n : (n <= 192)%nat -> mul_memory n <= 4 * Z.of_nat n.
Proof.
  intros H. unfold mul_memory, karatsuba_memory, MAX_LEN_SIMPLE, MAX_LEN_KARATSUBA. rewrite clog_bitlen.
  destruct (Nat.leb_spec n 24), (Nat.leb_spec n 192); try lia.
  pose proof (bitlen_mono (Z.of_nat n - 1) 191 ltac:(lia)) as M.
  change (bitlen 191) with 8 in M. lia.
Qed.

(** Nested calls: [fuel] of them are enough for operands of up to
    [24 * 2^(fuel - 1)] words. *)
Definition deep (fuel n : nat) : Prop :=
  match fuel with O => False | S k => Z.of_nat n <= 24 * 2 ^ Z.of_nat k end.

Lemma deep_lt fuel n : (n < fuel)%nat -> deep fuel n.
Proof.
  destruct fuel as [|k]; [lia|]. intros H. cbn [deep].
  pose proof (Z.pow_gt_lin_r 2 (Z.of_nat k) ltac:(lia) ltac:(lia)). lia.
Qed.

Lemma deep_half fuel n m : deep (S fuel) n -> (24 < n)%nat -> (2 * m <= n + 1)%nat -> deep fuel m.
Proof.
  cbn [deep]. intros H Hn Hm. destruct fuel as [|k].
  - change (2 ^ Z.of_nat 0) with 1 in H. lia.
  - cbn [deep]. rewrite Nat2Z.inj_succ, Z.pow_succ_r in H by lia. lia.
Qed.

Lemma deep_weaken fuel n m : deep fuel n -> (m <= n)%nat -> deep fuel m.
Proof. destruct fuel; cbn [deep]; [auto|lia]. Qed.

Lemma toom_level rec k n : (193 <= n)%nat -> (Z.of_nat n <= 189 * 3 ^ Z.of_nat (S k) + 3) ->
  (forall m, (m < n)%nat -> (2 * m <= n + 1)%nat -> Z.of_nat m <= 189 * 3 ^ Z.of_nat k + 3 -> rec_ok rec m (need_at k m)) ->
  rec_ok (toom_3_same_len rec) n (4 * Z.of_nat n + 20 * Z.of_nat (S k)).
Proof.
  intros Hn Hk Hrec. pose proof (Nat.div_mod (n + 2) 3 ltac:(lia)) as Dm.
  pose proof (Nat.mod_upper_bound (n + 2) 3 ltac:(lia)) as Db.
  set (N := ((n + 2) / 3)%nat) in *.
  set (R := 4 * (Z.of_nat N + 1) + 20 * Z.of_nat k).
  apply rec_ok_le with (8 * (Z.of_nat N + 1) + R); [unfold R; lia|].
  apply toom_3_spec; [auto|unfold R; lia|]. fold N. intros m Hm Hm2.
  apply rec_ok_le with (need_at k m).
  - unfold need_at, R. pose proof (mul_memory_small m). destruct (Nat.leb_spec m 192); lia.
  - apply Hrec; auto; [lia|]. rewrite Nat2Z.inj_succ, Z.pow_succ_r in Hk by lia. lia.
Qed.

Lemma simple_same_len_ok n : (n <= 24)%nat -> rec_ok simple_add_signed_mul_same_len n 0.
Proof.
  intros Hn c s a b mem Wc Wa Wb La Lb Lc Hm. unfold simple_add_signed_mul_same_len.
  assert (CHUNK_LEN = 1024%nat) as EC by reflexivity.
  rewrite check_true by (rewrite (proj2 (Nat.eqb_eq _ _)), (proj2 (Nat.eqb_eq _ _)) by lia; reflexivity).
  rewrite check_true by (apply Nat.leb_le; lia).
  apply simple_chunk_spec; auto; lia.
Qed.

Lemma same_len_small fuel : forall n, deep fuel n -> (n <= 192)%nat ->
  rec_ok (same_len_fuel fuel) n (mul_memory n).
Proof.
  induction fuel as [|fuel IH]; intros n Hf Hn; [destruct Hf|].
  intros c s a b mem Wc Wa Wb La Lb Lc Hm. cbn [same_len_fuel].
  rewrite La, Lb, Lc, !Nat.eqb_refl. cbn [andb]. rewrite check_true by reflexivity.
  unfold MAX_LEN_SIMPLE, MAX_LEN_KARATSUBA. pose proof (mul_memory_nonneg n).
  destruct (Nat.leb_spec n 24) as [H24|H24].
  - apply (simple_same_len_ok n); auto. lia.
  - rewrite (proj2 (Nat.leb_le n 192)) by auto.
    assert (rec_ok (karatsuba_same_len (same_len_fuel fuel)) n (mul_memory n)) as K
      by (apply karatsuba_spec; [lia|intros m Hm' Hm2; apply IH; [apply (deep_half fuel n); auto|lia]]).
    apply K; auto.
Qed.

Lemma same_len_level k : forall fuel n, deep fuel n -> Z.of_nat n <= 189 * 3 ^ Z.of_nat k + 3 ->
  rec_ok (same_len_fuel fuel) n (need_at k n).
Proof.
  induction k as [|k IH]; intros fuel n Hf Hn; unfold need_at; destruct (Nat.leb_spec n 192) as [H|H].
  - apply same_len_small; auto.
  - exfalso. change (3 ^ Z.of_nat 0) with 1 in Hn. lia.
  - apply same_len_small; auto.
  - destruct fuel as [|fuel]; [destruct Hf|].
    intros c s a b mem Wc Wa Wb La Lb Lc Hm. cbn [same_len_fuel].
    rewrite La, Lb, Lc, !Nat.eqb_refl. cbn [andb]. rewrite check_true by reflexivity.
    unfold MAX_LEN_SIMPLE, MAX_LEN_KARATSUBA.
    rewrite (proj2 (Nat.leb_gt n 24)), (proj2 (Nat.leb_gt n 192)) by lia.
    assert (rec_ok (toom_3_same_len (same_len_fuel fuel)) n (4 * Z.of_nat n + 20 * Z.of_nat (S k))) as K
      by (apply toom_level; [lia|auto|intros m H1 H2 H3; apply IH; [apply (deep_half fuel n); auto; lia|auto]]).
    apply K; auto.
Qed.

Lemma level_exists n : (193 <= n)%nat ->
  exists k, Z.of_nat n <= 189 * 3 ^ Z.of_nat (S k) + 3 /\
    4 * Z.of_nat n + 20 * Z.of_nat (S k) <= mul_memory n.
Proof.
  intros Hn.
  assert (forall j, Z.of_nat n <= 189 * 3 ^ Z.of_nat j + 3 ->
    exists k, Z.of_nat n <= 189 * 3 ^ Z.of_nat (S k) + 3 /\ 189 * 3 ^ Z.of_nat k + 3 < Z.of_nat n) as Hmin.
  { induction j as [|j IH]; intros H.
    - change (3 ^ Z.of_nat 0) with 1 in H. lia.
    - destruct (Z_lt_le_dec (189 * 3 ^ Z.of_nat j + 3) (Z.of_nat n)) as [C|C]; [|auto].
      exists j. auto. }
  destruct (Hmin n) as (k & K1 & K2).
  { pose proof (Z.pow_gt_lin_r 3 (Z.of_nat n) ltac:(lia) ltac:(lia)). lia. }
  exists k. split; [auto|].
  unfold mul_memory, toom_3_memory, MAX_LEN_SIMPLE, MAX_LEN_KARATSUBA. rewrite clog_bitlen.
  rewrite (proj2 (Nat.leb_gt n 24)), (proj2 (Nat.leb_gt n 192)) by lia.
  set (x := Z.of_nat n) in *. assert (193 <= x) as Hx by lia.
  unfold bitlen. destruct (Z.eqb_spec (x - 1) 0) as [E|_]; [lia|].
  pose proof (Z.log2_spec (x - 1) ltac:(lia)) as [_ Hl]. pose proof (Z.log2_nonneg (x - 1)) as Hl0.
  set (c := Z.succ (Z.log2 (x - 1))) in *.
  replace (Z.log2 (x - 1) + 1) with c by lia.
  assert (0 <= c) as Hc by lia. clearbody c.
  set (j := Z.of_nat (S k)). assert (0 <= j) as Hj by lia.
  assert (3 ^ j < 2 ^ c) as Hp.
  { replace j with (Z.succ (Z.of_nat k)) by lia. rewrite Z.pow_succ_r by lia.
    pose proof (Z.pow_pos_nonneg 3 (Z.of_nat k) ltac:(lia) ltac:(lia)). lia. }
  assert (20 * j < 13 * c); [|lia].
  apply (Z.pow_lt_mono_r_iff 2); [lia|lia|].
  rewrite (Z.mul_comm 13 c), (Z.pow_mul_r 2 c 13), (Z.pow_mul_r 2 20 j) by lia.
  apply Z.le_lt_trans with ((3 ^ j) ^ 13).
  - replace ((3 ^ j) ^ 13) with ((3 ^ 13) ^ j).
    + apply Z.pow_le_mono_l. split; [lia|]. intros H. vm_compute in H. discriminate H.
    + rewrite <- !Z.pow_mul_r by lia. f_equal. lia.
  - apply Z.pow_lt_mono_l; [lia|]. split; [apply Z.pow_nonneg; lia|auto].
Qed.

(** src/mul/mod.rs:156-173: the announced scratch memory is enough and the
    result is exact. *)
Lemma same_len_fuel_spec fuel n : deep fuel n -> rec_ok (same_len_fuel fuel) n (mul_memory n).
Proof.
  intros D. destruct (Nat.le_gt_cases n 192) as [H|H].
  - apply same_len_small; auto.
  - destruct (level_exists n ltac:(lia)) as (k & K1 & K2).
    apply rec_ok_le with (need_at (S k) n).
    + unfold need_at. rewrite (proj2 (Nat.leb_gt n 192)) by lia. lia.
    + apply same_len_level; auto.
Qed.

Lemma add_signed_mul_same_len_spec n : rec_ok add_signed_mul_same_len n (mul_memory n).
Proof.
  intros c s a b mem Wc Wa Wb La Lb Lc Hm. unfold add_signed_mul_same_len.
  apply (same_len_fuel_spec (S (length a)) n); auto. apply deep_lt. lia.
Qed.

Lemma karatsuba_ok fuel n : (25 <= n <= 192)%nat -> deep (S fuel) n ->
  rec_ok (karatsuba_same_len (same_len_fuel fuel)) n (mul_memory n).
Proof.
  intros H D. apply karatsuba_spec; auto. intros m Hm Hm2. apply same_len_fuel_spec.
  apply (deep_half fuel n); auto. lia.
Qed.

Lemma toom_3_ok fuel n : (193 <= n)%nat -> deep (S fuel) n ->
  rec_ok (toom_3_same_len (same_len_fuel fuel)) n (mul_memory n).
Proof.
  intros H D. destruct (level_exists n H) as (k & K1 & K2). apply rec_ok_le with (4 * Z.of_nat n + 20 * Z.of_nat (S k)); [auto|].
  apply toom_level; auto. intros m H1 H2 H3. apply same_len_level; auto.
  apply (deep_half fuel n); auto. lia.
Qed.

(** * Any lengths *)
Definition gen_ok (f : mul_fn) (la lb : nat) (mem : Z) : Prop :=
  forall c s a b, wf c -> wf a -> wf b -> length a = la -> length b = lb ->
    length c = (la + lb)%nat ->
    exists c' k, f c s a b mem = Ok (c', k) /\ mul_post c c' s a b k.

Lemma split_chunks_loop_spec f rec cl n mem : (0 < cl)%nat -> (n <= cl)%nat ->
  gen_ok f cl n mem ->
  forall fuel c s a b cn, wf c -> wf a -> wf b -> length b = n ->
    length c = (length a + n)%nat -> (length a < fuel)%nat -> Z.abs cn <= 2 ->
    ((n <= length a mod cl)%nat -> gen_ok rec (length a mod cl) n mem) ->
    ((length a mod cl < n)%nat -> gen_ok rec n (length a mod cl) mem) ->
  exists c' k, split_chunks_loop fuel f rec c s a b cl mem cn = Ok (c', k) /\
    upd_post c c' (sign_val s * (val a * val b) + Bn n * cn) k.
Proof.
  intros Hcl Hn Hf. induction fuel as [|fuel IH]; intros c s a b cn Wc Wa Wb Lb Lc Hfu Hcn Hr1 Hr2; [lia|].
  cbn [split_chunks_loop]. rewrite Lb. pose proof B_ge as HB.
  destruct (Nat.leb_spec cl (length a)) as [Ha|Ha].
  - rewrite split_at_Ok by auto. cbn [bind].
    destruct (list_split cl a Ha) as (a_lo & a_hi & -> & La1 & La2 & -> & ->).
    rewrite app_length in *. apply wf_app in Wa as [Wa1 Wa2].
    assert ((length a_lo + length a_hi) mod cl = length a_hi mod cl)%nat as Em.
    { rewrite La1. replace (cl + length a_hi)%nat with (length a_hi + 1 * cl)%nat by lia.
      apply Nat.mod_add. lia. }
    destruct (w_word c n (cl + n) cn) as (c1 & k1 & -> & (Lc1 & Wc1 & V1) & (_ & R1)); [auto; try lia..|]. hd V1. cbn [bind].
    specialize (R1 ltac:(lia)).
    destruct (on_window_spec (fun k : Z => k) 0 (cl + n) c1 (fun w => f w s a_lo b mem)
      (sign_val s * (val a_lo * val b)) (fun k => -1 <= k <= 1)) as (c2 & k2 & -> & (Lc2 & Wc2 & V2) & R2); auto; try lia.
    { intros w Ww Lw. destruct (Hf w s a_lo b) as (w' & k & E & P); auto; [lia|].
      exists w', k. split; [exact E|]. split; [exact P|]. apply (mul_post_carry w w' s a_lo b); auto; lia. }
    hd V2. cbn [bind]. rewrite sword_chk_ok by lia. cbn [bind].
    destruct (on_window_spec (fun k : Z => k) cl (length c2) c2
      (fun w => split_chunks_loop fuel f rec w s a_hi b cl mem (k1 + k2))
      (sign_val s * (val a_hi * val b) + Bn n * (k1 + k2)) (fun _ => True))
      as (c3 & k3 & -> & (Lc3 & Wc3 & V3) & _); auto; try lia.
    { intros w Ww Lw. destruct (IH w s a_hi b (k1 + k2)) as (w' & k & E & P); auto; try lia.
      - rewrite Em in Hr1. exact Hr1.
      - rewrite Em in Hr2. exact Hr2.
      - exists w', k. auto. }
    do 2 eexists; split; [reflexivity|]. unfold upd_post, hid in *. split; [congruence|]. split; [auto|].
    rewrite val_app, La1. replace (length c2) with (length c) in V3 by congruence.
    rewrite Bn_0 in V2. rewrite Bn_add in *. lia.
  - rewrite (Nat.mod_small _ _ Ha) in Hr1, Hr2.
    destruct (w_word c n (length c) cn) as (c1 & k1 & -> & (Lc1 & Wc1 & V1) & (R1 & _)); [auto; try lia..|]. hd V1. cbn [bind].
    destruct (Nat.leb_spec n (length a)) as [Hna|Hna].
    + destruct (Hr1 Hna c1 s a b) as (c2 & k2 & -> & P); auto; [lia|]. cbn [bind].
      assert (-1 <= k2 <= 1) by (apply (mul_post_carry c1 c2 s a b); auto; lia).
      rewrite sword_chk_ok by lia. cbn [bind].
      destruct P as (L2 & W2 & V2). do 2 eexists; split; [reflexivity|].
      unfold upd_post, hid in *. split; [congruence|]. split; [auto|]. rewrite Lc1 in V2. lia.
    + destruct (Nat.eqb_spec (length a) 0) as [E0|E0]; cbn [negb].
      * destruct a; [|discriminate]. do 2 eexists; split; [reflexivity|].
        unfold upd_post, hid in *. split; [congruence|]. split; [auto|]. cbn [val]. lia.
      * destruct (Hr2 Hna c1 s b a) as (c2 & k2 & -> & P); auto; [lia|]. cbn [bind].
        assert (-1 <= k2 <= 1) by (apply (mul_post_carry c1 c2 s b a); auto; lia).
        rewrite sword_chk_ok by lia. cbn [bind].
        destruct P as (L2 & W2 & V2). do 2 eexists; split; [reflexivity|].
        unfold upd_post, hid in *. split; [congruence|]. split; [auto|]. rewrite Lc1 in V2. lia.
Qed.

Lemma split_chunks_spec f rec cl la n mem : (0 < cl)%nat -> (n <= cl)%nat -> (n <= la)%nat ->
  gen_ok f cl n mem ->
  ((n <= la mod cl)%nat -> gen_ok rec (la mod cl) n mem) ->
  ((la mod cl < n)%nat -> gen_ok rec n (la mod cl) mem) ->
  gen_ok (fun c s a b mem => add_signed_mul_split_into_chunks f rec c s a b cl mem) la n mem.
Proof.
  intros H1 H2 H3 Hf Hr1 Hr2 c s a b Wc Wa Wb La Lb Lc.
  unfold add_signed_mul_split_into_chunks.
  rewrite check_true by (rewrite La, Lb, (proj2 (Nat.leb_le n la)), (proj2 (Nat.eqb_eq _ _)) by auto; reflexivity).
  rewrite check_true by (apply Nat.leb_le; lia).
  destruct (split_chunks_loop_spec f rec cl n mem H1 H2 Hf (S (length a)) c s a b 0) as (c' & k & E & P);
    auto; try lia.
  - rewrite La. auto.
  - rewrite La. auto.
  - exists c', k. split; [exact E|]. unfold mul_post. rewrite Z.mul_0_r, Z.add_0_r in P. exact P.
Qed.

Lemma mul_post_swap c c' s a b k : mul_post c c' s b a k -> mul_post c c' s a b k.
Proof. unfold mul_post. rewrite (Z.mul_comm (val b)). auto. Qed.

(** Nested calls for operands of different lengths: the remainders shrink as in
    Euclid's algorithm, so two calls halve the smaller length. *)
Definition gdeep (fuel la lb : nat) : Prop :=
  (1 <= fuel /\ Nat.min la lb <= 24 /\ Nat.max la lb <= 1024)%nat \/
  exists k, Z.of_nat (Nat.min la lb) <= 24 * 2 ^ Z.of_nat k /\
    ((2 * k + 2 <= fuel)%nat \/ (2 * k + 1 <= fuel)%nat /\ Z.of_nat (Nat.max la lb) <= 24 * 2 ^ Z.of_nat k).

Lemma gdeep_swap fuel la lb : gdeep fuel la lb -> gdeep fuel lb la.
Proof. unfold gdeep. rewrite (Nat.min_comm la), (Nat.max_comm la). auto. Qed.

Lemma gdeep_lt fuel la lb : (la + lb < fuel)%nat -> gdeep fuel la lb.
Proof.
  intros H. destruct (Nat.le_gt_cases (Nat.min la lb) 24) as [C|C].
  - destruct (Nat.le_gt_cases (Nat.max la lb) 1024) as [D|D]; [left; lia|].
    right. exists 0%nat. change (2 ^ Z.of_nat 0) with 1. lia.
  - right. exists (Nat.min la lb - 1)%nat. split; [|lia].
    pose proof (Z.pow_gt_lin_r 2 (Z.of_nat (Nat.min la lb - 1)) ltac:(lia) ltac:(lia)). lia.
Qed.

Lemma gdeep_inner fuel la lb : gdeep (S fuel) la lb -> (24 < lb <= la)%nat -> deep (S fuel) lb.
Proof.
  intros [H|(k & H & K)] Hl; [lia|]. rewrite Nat.min_r in H by lia. cbn [deep].
  assert (2 ^ Z.of_nat k <= 2 ^ Z.of_nat fuel) by (apply Z.pow_le_mono_r; lia). lia.
Qed.

Lemma gdeep_simple fuel la lb l : gdeep (S fuel) la lb -> (lb <= 24)%nat -> (1024 < la)%nat ->
  (l <= 1024)%nat -> gdeep fuel l lb.
Proof.
  intros H Hb Ha Hl. left. split; [|lia]. destruct H as [H|(k & H & [K|[K K2]])]; [lia..|].
  destruct k; [|lia]. change (2 ^ Z.of_nat 0) with 1 in K2. lia.
Qed.

Lemma gdeep_euclid fuel la lb : gdeep (S fuel) la lb -> (24 < lb <= la)%nat ->
  gdeep fuel lb (la mod lb).
Proof.
  intros H Hl. pose proof (Nat.mod_upper_bound la lb ltac:(lia)) as Hr.
  pose proof (Nat.div_mod la lb ltac:(lia)) as Dm.
  assert (1 <= la / lb)%nat as Hq by (apply Nat.div_le_lower_bound; lia).
  assert (lb * 1 <= lb * (la / lb))%nat as Hp by (apply Nat.mul_le_mono_l; auto).
  set (r := (la mod lb)%nat) in *. assert (2 * r < la)%nat as R2 by lia. clear Dm Hq Hp. clearbody r.
  destruct H as [H|(k & H & K)]; [lia|]. rewrite Nat.min_r in H by lia. right.
  destruct K as [K|[K K2]].
  - exists k. rewrite Nat.min_r, Nat.max_l by lia. split; [lia|]. right. lia.
  - rewrite Nat.max_l in K2 by lia. destruct k as [|k].
    + change (2 ^ Z.of_nat 0) with 1 in H. lia.
    + exists k. rewrite Nat.min_r, Nat.max_l by lia. rewrite Nat2Z.inj_succ, Z.pow_succ_r in K2 by lia.
      split; [lia|left; lia].
Qed.

Lemma add_signed_mul_fuel_spec fuel : forall la lb mem, gdeep fuel la lb ->
  mul_memory (Nat.min la lb) <= mem -> gen_ok (add_signed_mul_fuel fuel) la lb mem.
Proof.
  induction fuel as [|fuel IH]; intros la lb mem Hf Hm.
  { exfalso. destruct Hf as [?|(? & ? & ?)]; lia. }
  assert (forall la lb, gdeep (S fuel) la lb -> (lb <= la)%nat -> mul_memory lb <= mem -> 
    forall c s a b, wf c -> wf a -> wf b -> length a = la -> length b = lb -> length c = (la + lb)%nat ->
    exists c' k, (let rec := add_signed_mul_fuel fuel in
      if (length b <=? MAX_LEN_SIMPLE)%nat then
        check ((length b <=? length a) && (length c =? length a + length b))%nat ;;
        check (length b <=? CHUNK_LEN)%nat ;;
        if (length a <=? CHUNK_LEN)%nat then simple_add_signed_mul_chunk c s a b mem
        else add_signed_mul_split_into_chunks simple_add_signed_mul_chunk rec c s a b CHUNK_LEN mem
      else if (length b <=? MAX_LEN_KARATSUBA)%nat then
        check ((length b <=? length a) && (KARATSUBA_MIN_LEN <=? length b)
               && (length c =? length a + length b))%nat ;;
        add_signed_mul_split_into_chunks (karatsuba_same_len (same_len_fuel fuel)) rec
          c s a b (length b) mem
      else
        check ((length b <=? length a) && (TOOM_3_MIN_LEN <=? length b)
               && (length c =? length a + length b))%nat ;;
        add_signed_mul_split_into_chunks (toom_3_same_len (same_len_fuel fuel)) rec
          c s a b (length b) mem) = Ok (c', k) /\ mul_post c c' s a b k) as Hmain.
  { clear la lb Hf Hm. intros la lb Hf Hle Hm c s a b Wc Wa Wb La Lb Lc. cbv zeta.
    assert (CHUNK_LEN = 1024%nat) as EC by reflexivity.
    rewrite La, Lb, Lc, (proj2 (Nat.leb_le lb la) Hle), Nat.eqb_refl. cbn [andb].
    unfold MAX_LEN_SIMPLE, MAX_LEN_KARATSUBA, KARATSUBA_MIN_LEN, TOOM_3_MIN_LEN.
    destruct (Nat.leb_spec lb 24) as [H24|H24].
    - rewrite check_true by reflexivity. rewrite check_true by (apply Nat.leb_le; lia).
      destruct (Nat.leb_spec la CHUNK_LEN) as [HC|HC].
      + apply simple_chunk_spec; auto; lia.
      + pose proof (Nat.mod_upper_bound la CHUNK_LEN ltac:(lia)).
        apply (split_chunks_spec simple_add_signed_mul_chunk (add_signed_mul_fuel fuel) CHUNK_LEN la lb mem); auto; try lia.
        * intros c0 s0 a0 b0 W1 W2 W3 L1 L2 L3. apply simple_chunk_spec; auto; lia.
        * intros Hl. apply IH; [apply (gdeep_simple fuel la lb); auto; lia|]. rewrite Nat.min_r by lia. auto.
        * intros Hl. apply IH; [apply gdeep_swap, (gdeep_simple fuel la lb); auto; lia|]. rewrite Nat.min_r by lia.
          pose proof (mul_memory_mono (la mod CHUNK_LEN) lb ltac:(lia)). lia.
    - rewrite (proj2 (Nat.leb_le _ lb)) by lia. cbn [andb].
      destruct (Nat.leb_spec lb 192) as [H192|H192].
      + rewrite check_true by reflexivity.
        apply (split_chunks_spec (karatsuba_same_len (same_len_fuel fuel)) (add_signed_mul_fuel fuel) lb la lb mem); auto; try lia.
        * intros c0 s0 a0 b0 W1 W2 W3 L1 L2 L3. apply (karatsuba_ok fuel lb); auto; try lia; apply (gdeep_inner fuel la lb); auto; lia.
        * intros Hl. apply IH; [apply gdeep_euclid; auto; lia|]. rewrite Nat.min_r by lia.
          pose proof (mul_memory_mono (la mod lb) lb ltac:(lia)). lia.
      + rewrite (proj2 (Nat.leb_le _ lb)) by lia. rewrite check_true by reflexivity.
        apply (split_chunks_spec (toom_3_same_len (same_len_fuel fuel)) (add_signed_mul_fuel fuel) lb la lb mem); auto; try lia.
        * intros c0 s0 a0 b0 W1 W2 W3 L1 L2 L3. apply (toom_3_ok fuel lb); auto; try lia; apply (gdeep_inner fuel la lb); auto; lia.
        * intros Hl. apply IH; [apply gdeep_euclid; auto; lia|]. rewrite Nat.min_r by lia.
          pose proof (mul_memory_mono (la mod lb) lb ltac:(lia)). lia. }
  intros c s a b Wc Wa Wb La Lb Lc. cbn [add_signed_mul_fuel].
  rewrite check_true by (apply Nat.eqb_eq; lia).
  destruct (Nat.ltb_spec (length a) (length b)) as [Hl|Hl].
  - destruct (Hmain lb la (gdeep_swap _ _ _ Hf) ltac:(lia) ltac:(rewrite Nat.min_l in Hm by lia; auto) c s b a)
      as (c' & k & E & P); auto; [lia|].
    exists c', k. split; [exact E|apply mul_post_swap; exact P].
  - apply (Hmain la lb); auto; [lia|]. rewrite Nat.min_r in Hm by lia. auto.
Qed.

(** src/mul/mod.rs:130-150: [c += sign * a * b] is exact for operands of any
    lengths, within the announced scratch memory. *)
Lemma add_signed_mul_spec c s a b mem : wf c -> wf a -> wf b ->
  length c = (length a + length b)%nat -> mul_memory (Nat.min (length a) (length b)) <= mem ->
  exists c' k, add_signed_mul c s a b mem = Ok (c', k) /\ mul_post c c' s a b k.
Proof.
  intros Wc Wa Wb L M. unfold add_signed_mul.
  apply (add_signed_mul_fuel_spec (S (length a + length b)) (length a) (length b)); auto. apply gdeep_lt. lia.
Qed.

End MulFull.
