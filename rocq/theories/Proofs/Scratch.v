(** The scratch memory that the operations ask for is what they need, or the request is
    too large. *)
From Verif Require Import Model.Base Model.Words Model.Memory Model.Mul Model.Div Model.RawMemory Model.Buffer
  Spec.Val Spec.Chunk Proofs.Basics Proofs.BufferProofs Proofs.FastDivideProofs Proofs.MulProofs Proofs.DivProofs Proofs.RawMemoryProofs.
From Coq Require Import Lia.

Section Scratch.
Context {A : Arch} {AOK : ArchOk A}.

Lemma word_size_pos : 0 < word_size.
Proof. unfold word_size. destruct wbits_cases as [-> | [-> | ->]]; reflexivity. Qed.

Lemma word_ty_ok : word_type word_ty.
Proof.
  split; [|reflexivity]. pose proof word_size_pos. pose proof ubits_ge. split; [|split; [exact H|apply Z.divide_refl]]. cbn [t_align word_ty]. unfold word_size.
  destruct wbits_cases as [-> | [-> | ->]]; [exists 1|exists 2|exists 3]; (split; [lia|reflexivity]).
Qed.

Lemma new_memory_words mem l : for_words word_ty mem l -> mem * word_size <= ISIZE_MAX -> new_memory l = Ok mem.
Proof.
  intros [E AL] L. pose proof word_size_pos. unfold new_memory, allocation_new. cbn [t_size t_align word_ty] in *. rewrite E.
  rewrite (proj2 (Z.ltb_ge _ _)) by lia. assert ((l_align l =? 0) = false) as -> by (apply Z.eqb_neq; lia).
  destruct (mem * word_size =? 0); cbn [bind a_layout]; rewrite E, Z.div_mul by lia; reflexivity.
Qed.

(** A request for [mem] words. *)
Lemma request_words m mem : lays_out word_ty m mem ->
  (mem * word_size <= ISIZE_MAX -> exists l, m = Ok l /\ new_memory l = Ok mem) /\ (ISIZE_MAX < mem * word_size -> m = Panic OutOfMemory).
Proof.
  intros [L1 L2]. split; [|exact L2]. intros H. destruct (L1 H) as (l & E & F). exists l. split; [exact E|]. apply new_memory_words; auto.
Qed.

Lemma mul_request n : 2 * Z.of_nat n <= MAX_LEN + 4 -> exists l, mul_layout word_ty n = Ok l /\ new_memory l = Ok (mul_memory n).
Proof.
  intros H. destruct (mul_layout_fits word_ty n word_ty_ok H) as (l & E & F). exists l. split; [exact E|]. apply new_memory_words; [exact F|].
  exact (mul_fits word_ty n word_ty_ok H).
Qed.

Lemma div_request n k : (2 <= k <= n)%nat -> Z.of_nat n <= MAX_LEN + 4 ->
  exists mem l, div_memory n k = Ok mem /\ div_layout word_ty n k = Ok l /\ new_memory l = Ok mem.
Proof.
  intros K H. pose proof MAX_LEN_ge. destruct (lays_div word_ty n k (proj1 word_ty_ok) K) as (mem & E & [L1 L2] & _); [lia|].
  destruct (div_fits word_ty n k word_ty_ok K H) as (mem' & l & E' & El & F). rewrite E in E'. injection E' as <-. exists mem, l.
  split; [exact E|]. split; [exact El|]. apply new_memory_words; [exact F|]. destruct (Z.le_gt_cases (mem * word_size) ISIZE_MAX) as [|C]; [auto|].
  rewrite L2 in El by exact C. discriminate.
Qed.

(** The words for a product in a ring with a modulus of [n] words. *)
Definition ring_need (n : nat) : Z := 2 * Z.of_nat n + mul_memory n.

Lemma div_memory_half n : (2 <= n)%nat -> exists d, div_memory (2 * n) n = Ok d /\ 0 <= d <= mul_memory n.
Proof.
  intros H. destruct (div_memory_Ok (2 * n) n ltac:(lia) H) as (d & E & P). exists d. split; [exact E|]. split; [exact P|].
  unfold div_memory in E. rewrite check_true in E by (rewrite andb_true_iff, !Nat.leb_le; lia). pose proof (mul_memory_nonneg n).
  destruct ((n <=? DIV_MAX_LEN_SIMPLE) || (2 * n - n <=? DIV_MAX_LEN_SIMPLE))%nat; injection E as <-; [lia|].
  unfold dc_memory. apply mul_memory_mono. pose proof (Nat.div_le_upper_bound n 2 n). lia.
Qed.

Lemma ring_mul_request n : (2 <= n)%nat -> Z.of_nat n <= MAX_LEN ->
  (ring_need n * word_size <= ISIZE_MAX -> exists l, ring_mul_layout word_ty n = Ok l /\ new_memory l = Ok (ring_need n)) /\
  (ISIZE_MAX < ring_need n * word_size -> ring_mul_layout word_ty n = Panic OutOfMemory).
Proof.
  intros N H. destruct (lays_ring_mul word_ty n word_ty_ok N H) as (d & E & L & _). destruct (div_memory_half n N) as (d' & E' & D). rewrite E in E'. injection E' as <-.
  rewrite Z.max_l in L by lia. exact (request_words _ _ L).
Qed.

Lemma ring_pow_request n wl : (2 <= n)%nat -> Z.of_nat n <= MAX_LEN -> 1 <= wl ->
  let need := (2 ^ (wl - 1) - 1) * Z.of_nat n + ring_need n in
  (need * word_size <= ISIZE_MAX -> exists l, ring_pow_layout word_ty n wl = Ok l /\ new_memory l = Ok need) /\
  (ISIZE_MAX < need * word_size -> ring_pow_layout word_ty n wl = Panic OutOfMemory).
Proof.
  intros N H W need. destruct (lays_ring_pow word_ty n wl word_ty_ok N H W) as (d & E & L). destruct (div_memory_half n N) as (d' & E' & D). rewrite E in E'. injection E' as <-.
  rewrite Z.max_l in L by lia. exact (request_words _ _ L).
Qed.

End Scratch.
