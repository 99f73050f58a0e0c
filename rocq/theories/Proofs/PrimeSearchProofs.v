(** The tool that finds primes: the search for the order and the primes. *)
From Coq Require Import ZArith Znumtheory Zpow_facts List Sorted Permutation Lia.
From Verif Require Import Model.Base Model.Words Model.Buffer Model.UBig Model.IBig Model.Convert Model.AddOps Model.MulOps
  Model.ShiftOps Model.Bits Model.DivOps Model.Gcd Model.Rand Model.Modular Model.Tools
  Spec.Val Spec.Num Spec.Prim Spec.Modular Spec.Rand Spec.Order Spec.PrimeSearch
  Proofs.Basics Proofs.BufferProofs Proofs.ConvertProofs Proofs.AddOpsProofs Proofs.MulOpsProofs Proofs.ShiftOpsProofs Proofs.DivOpsProofs
  Proofs.BitCountProofs Proofs.GcdProofs Proofs.RandProofs Proofs.ModularProofs Proofs.ModularApi Proofs.ModularRoom Proofs.ModularTheorems
  Proofs.OrderProofs Proofs.PrimitiveRoots Proofs.PrimeTest Proofs.PrimeToolProofs Proofs.RootSearchProofs.
Open Scope Z_scope.

(** ** Suitable primes *)

Lemma suitable_step bits order p : 2 <= order <= bits ->
  (suitable bits (order - 1) p <-> suitable bits order p \/
     (prime p /\ exists m, Z.odd m = true /\ 1 <= m < 2 ^ (bits - (order - 1)) /\ p = m * 2 ^ (order - 1) + 1)).
Proof.
  intros Ho. destruct (two_pow_step order ltac:(lia)) as [E2 PP].
  assert (EB : 2 ^ bits = 2 ^ (bits - (order - 1)) * 2 ^ (order - 1)) by (rewrite <- Z.pow_add_r by lia; f_equal; lia).
  assert (G2 : 2 <= 2 ^ (order - 1)) by (rewrite <- (Z.pow_1_r 2) at 1; apply Z.pow_le_mono_r; lia).
  split.
  - intros (P & [t Et] & L). pose proof (prime_ge_2 p P) as Hp. destruct (Z.odd t) eqn:Ot.
    + right. split; [exact P|]. exists t. split; [exact Ot|]. split; [|clear - Et; lia]. clear - Et L EB PP Hp. nia.
    + left. split; [exact P|]. split; [|exact L]. rewrite <- Z.negb_even in Ot. apply Bool.negb_false_iff in Ot. apply Z.even_spec in Ot as [s ->].
      exists s. clear - Et E2. lia.
  - intros [(P & [t Et] & L)|(P & m & Om & Lm & ->)].
    + split; [exact P|]. split; [|exact L]. exists (2 * t). clear - Et E2. lia.
    + split; [exact P|]. split; [exists m; ring|]. clear - Lm EB PP G2. nia.
Qed.

Lemma suitable_none bits p : ~ suitable bits bits p.
Proof. intros (P & D & L). pose proof (prime_ge_2 p P). apply Z.divide_pos_le in D; lia. Qed.

Lemma suitable_less bits order order' p : 0 <= order <= order' -> suitable bits order' p -> suitable bits order p.
Proof.
  intros H (P & D & L). split; [exact P|]. split; [|exact L]. apply Z.divide_trans with (2 ^ order'); [|exact D].
  exists (2 ^ (order' - order)). rewrite <- Z.pow_add_r by lia. f_equal. lia.
Qed.

Lemma primes_357 : prime 3 /\ prime 5 /\ prime 7.
Proof.
  split; [exact prime_3|]. split.
  - apply (prime_by_generator 2 5); [lia|]. split; [reflexivity|]. intros j Hj.
    assert (C : j = 1 \/ j = 2 \/ j = 3) by lia. destruct C as [->|[-> | ->]]; discriminate.
  - apply (prime_by_generator 3 7); [lia|]. split; [reflexivity|]. intros j Hj.
    assert (C : j = 1 \/ j = 2 \/ j = 3 \/ j = 4 \/ j = 5) by lia. destruct C as [->|[->|[->|[-> | ->]]]]; discriminate.
Qed.

Lemma three_suitable bits : 3 <= bits -> NoDup [3; 5; 7] /\ Forall (suitable bits 1) [3; 5; 7].
Proof.
  intros H. assert (L : 2 ^ 3 <= 2 ^ bits) by (apply Z.pow_le_mono_r; lia). change (2 ^ 3) with 8 in L. split.
  - repeat constructor; cbn; lia.
  - destruct primes_357 as (P3 & P5 & P7).
    apply Forall_cons; [split; [exact P3|split; [exists 1; reflexivity|clear - L; lia]]|].
    apply Forall_cons; [split; [exact P5|split; [exists 2; reflexivity|clear - L; lia]]|].
    apply Forall_cons; [split; [exact P7|split; [exists 3; reflexivity|clear - L; lia]]|]. apply Forall_nil.
Qed.

Lemma nodup_app (l m : list Z) : NoDup l -> NoDup m -> (forall x, In x l -> In x m -> False) -> NoDup (l ++ m).
Proof.
  intros Hl Hm. induction Hl as [|x l N Hl IH]; intros D; cbn [app]; [exact Hm|]. constructor.
  - rewrite in_app_iff. intros [C|C]; [contradiction|]. exact (D x (or_introl eq_refl) C).
  - apply IH. intros y Hy. apply D. right. exact Hy.
Qed.

Section Search.
Context {A : Arch} {AOK : ArchOk A}.

Lemma MAXV_big : 2 ^ 192 <= MAXV.
Proof. unfold MAXV. apply Z.pow_le_mono_r; [lia|]. pose proof wbits_ge. pose proof MAX_LEN_ge. nia. Qed.

Lemma small_room n e : 1 <= n < 2 ^ 64 -> e <= n -> room_for_pow n e = true.
Proof.
  intros Hn He. apply (room_pow_le n e n He). pose proof MAXV_big as M. pose proof wbits_ge. apply pow_room_often.
  - split; [lia|]. apply Z.lt_le_trans with (2 ^ 192); [|exact M]. apply Z.lt_trans with (2 ^ 64); [lia|reflexivity].
  - right. apply Z.lt_le_trans with (2 ^ 192); [|exact M]. apply Z.lt_le_trans with (2 ^ 64 * 2 ^ 64); [clear - Hn; nia|discriminate].
  - unfold words_in. assert (L : Z.log2 n <= 63). { assert (K : Z.log2 n < 64) by (apply Z.log2_lt_pow2; lia). lia. }
    pose proof (Z.log2_nonneg n) as L0. pose proof MAX_LEN_ge. assert (D : Z.log2 n / wbits < 4) by (apply Z.div_lt_upper_bound; lia).
    assert (0 <= Z.log2 n / wbits) by (apply Z.div_pos; lia). nia.
Qed.

Lemma bitlen_le m k : 1 <= m -> 0 <= k -> (bitlen m <=? k) = (m <? 2 ^ k).
Proof.
  intros Hm Hk. unfold bitlen. destruct (Z.eqb_spec m 0); [lia|]. destruct (Z.ltb_spec m (2 ^ k)) as [L|G].
  - apply Z.leb_le. assert (Z.log2 m < k) by (apply Z.log2_lt_pow2; lia). lia.
  - apply Z.leb_gt. assert (k <= Z.log2 m) by (apply Z.log2_le_pow2; lia). lia.
Qed.

(** ** The loop over the multiples *)

Lemma mult_loop_spec bits order rounds attempts : 1 <= order < bits -> bits <= 64 ->
  forall fuel mult primes, ubig_ok mult -> Z.odd (uval mult) = true -> 1 <= uval mult <= 2 ^ (bits - order) + 1 ->
  2 ^ (bits - order) + 1 < uval mult + Z.of_nat fuel -> Forall ubig_ok primes ->
  all (mult_loop fuel rounds attempts bits order mult primes) (fun o => o = Ok None \/
    exists l extra, o = Ok (Some l) /\ Forall ubig_ok l /\ map uval l = map uval primes ++ extra /\ NoDup extra /\
      forall p, In p extra <-> prime p /\ exists m, Z.odd m = true /\ uval mult <= m < 2 ^ (bits - order) /\ p = m * 2 ^ order + 1).
Proof.
  intros Ho Hb. destruct (two_pow_step order ltac:(lia)) as [E2 PP].
  assert (EB : 2 ^ bits = 2 ^ (bits - order) * 2 ^ order) by (rewrite <- Z.pow_add_r by lia; f_equal; lia).
  assert (LB : 2 ^ bits <= 2 ^ 64) by (apply Z.pow_le_mono_r; lia). pose proof MAXV_big as M.
  assert (L64 : 2 ^ 64 + 2 < 2 ^ 192) by reflexivity.
  assert (OU : 1 <= order < 2 ^ ubits). { split; [apply Ho|]. destruct arch_ok as (_ & U & _). destruct U as [->|[-> | ->]]; clear - Ho Hb; lia. }
  assert (SM : 2 ^ (bits - order) <= 2 ^ bits) by (apply Z.pow_le_mono_r; lia).
  induction fuel as [|fuel IH]; intros mult primes Hm Om Lm Hf Hps; [clear - Lm Hf; lia|]. cbn [mult_loop].
  rewrite ubig_bit_len_spec by exact Hm. cbn [lift rbind]. rewrite bitlen_le by (clear - Lm Ho; lia).
  destruct (Z.ltb_spec (uval mult) (2 ^ (bits - order))) as [L|G].
  - set (n := uval mult * 2 ^ order + 1). assert (Ln : 3 <= n < 2 ^ bits). { unfold n. clear - L Lm EB E2 PP. nia. }
    assert (HM : n < MAXV) by (clear - Ln LB L64 M; lia). assert (HR : room_for_pow n n = true) by (apply small_room; clear - Ln LB; lia).
    apply all_bind. apply (all_impl _ (fun o => o = Ok None \/ (o = Ok (Some true) /\ prime n) \/ (o = Ok (Some false) /\ ~ prime n))).
    2: { apply runs_all. intros cs o R. exact (is_prime_right rounds attempts mult order cs o Hm (proj1 Lm) OU HM HR R). }
    intros o [-> |[[-> P]|[-> NP]]]; [left; reflexivity| |].
    + destruct (ubig_shl_r_yields mult order Hm ltac:(clear - OU; lia)) as [S1 _]. destruct S1 as (s & -> & Hs & Es); [clear - HM; unfold n in HM; lia|]. cbn [bind].
      destruct (literal_spec 1 ltac:(clear; lia)) as (c & -> & Hc & Ec). cbn [bind].
      destruct (ubig_add_vv_yields s c Hs Hc) as [A1 _]. rewrite Es, Ec in A1. fold n in A1. destruct (A1 HM) as (p & -> & Hp & Ep). cbn [bind].
      destruct (literal_spec 2 ltac:(clear; lia)) as (c2 & -> & Hc2 & Ec2). cbn [bind].
      destruct (ubig_add_vv_yields mult c2 Hm Hc2) as [A2 _]. rewrite Ec2 in A2. destruct A2 as (m' & E' & Hm' & Em'); [clear - L SM LB L64 M; lia|].
      unfold ubig_add_assign_v. rewrite E'. cbn [bind lift rbind].
      apply (all_impl _ _ _) with (2 := IH m' (primes ++ [p]) Hm' ltac:(rewrite Em', Z.odd_add, Om; reflexivity) ltac:(rewrite Em'; clear - L Lm; lia) ltac:(rewrite Em'; clear - Hf; lia)
        ltac:(apply Forall_app; split; [exact Hps|apply Forall_cons; [exact Hp|apply Forall_nil]])).
      intros o [-> |(l & extra & -> & Hl & El & ND & IN)]; [left; reflexivity|]. right. exists l, (n :: extra). split; [reflexivity|]. split; [exact Hl|].
      split; [rewrite El, map_app; cbn [map]; rewrite Ep, <- app_assoc; reflexivity|]. split.
      * constructor; [|exact ND]. intros K. apply IN in K as (_ & m & _ & Lmm & E). unfold n in E. clear - E Lmm Em' PP E2. nia.
      * intros q. cbn [In]. rewrite IN. split.
        -- intros [<- |(Q & m & Omm & Lmm & E)]; [split; [exact P|]; exists (uval mult); split; [exact Om|]; split; [clear - L; lia|reflexivity]|].
           split; [exact Q|]. exists m. split; [exact Omm|]. split; [clear - Lmm Em'; lia|exact E].
        -- intros (Q & m & Omm & Lmm & E). destruct (Z.eq_dec m (uval mult)) as [-> |Ne]; [left; symmetry; exact E|]. right. split; [exact Q|].
           exists m. split; [exact Omm|]. split; [|exact E]. destruct (Z.eq_dec m (uval mult + 1)) as [-> |Ne2]; [|clear - Ne Ne2 Lmm Em'; lia].
           rewrite Z.odd_add, Om in Omm. discriminate.
    + destruct (literal_spec 2 ltac:(clear; lia)) as (c2 & -> & Hc2 & Ec2). cbn [bind].
      destruct (ubig_add_vv_yields mult c2 Hm Hc2) as [A2 _]. rewrite Ec2 in A2. destruct A2 as (m' & E' & Hm' & Em'); [clear - L SM LB L64 M; lia|].
      unfold ubig_add_assign_v. rewrite E'. cbn [bind lift rbind].
      apply (all_impl _ _ _) with (2 := IH m' primes Hm' ltac:(rewrite Em', Z.odd_add, Om; reflexivity) ltac:(rewrite Em'; clear - L Lm; lia) ltac:(rewrite Em'; clear - Hf; lia) Hps).
      intros o [-> |(l & extra & -> & Hl & El & ND & IN)]; [left; reflexivity|]. right. exists l, extra. split; [reflexivity|]. split; [exact Hl|].
      split; [exact El|]. split; [exact ND|]. intros q. rewrite IN. split.
      * intros (Q & m & Omm & Lmm & E). split; [exact Q|]. exists m. split; [exact Omm|]. split; [clear - Lmm Em'; lia|exact E].
      * intros (Q & m & Omm & Lmm & E). split; [exact Q|]. exists m. split; [exact Omm|]. split; [|exact E].
        destruct (Z.eq_dec m (uval mult)) as [-> |Ne]; [elim NP; unfold n; rewrite <- E; exact Q|].
        destruct (Z.eq_dec m (uval mult + 1)) as [-> |Ne2]; [rewrite Z.odd_add, Om in Omm; discriminate|clear - Ne Ne2 Lmm Em'; lia].
  - right. exists primes, []. split; [reflexivity|]. split; [exact Hps|]. split; [rewrite app_nil_r; reflexivity|]. split; [constructor|].
    intros p. cbn [In]. split; [tauto|]. intros (_ & m & _ & Lmm & _). clear - Lmm G. lia.
Qed.

(** Some random numbers end the loop. *)
Lemma mult_loop_ends bits order rounds attempts : 1 <= order < bits -> bits <= 64 -> (0 < rounds)%nat -> (0 < attempts)%nat ->
  forall fuel mult primes, ubig_ok mult -> 1 <= uval mult <= 2 ^ (bits - order) + 1 -> 2 ^ (bits - order) + 1 < uval mult + Z.of_nat fuel ->
  exists cs l, runs (mult_loop fuel rounds attempts bits order mult primes) cs (Ok (Some l)).
Proof.
  intros Ho Hb Hr Ha. destruct (two_pow_step order ltac:(lia)) as [E2 PP].
  assert (EB : 2 ^ bits = 2 ^ (bits - order) * 2 ^ order) by (rewrite <- Z.pow_add_r by lia; f_equal; lia).
  assert (LB : 2 ^ bits <= 2 ^ 64) by (apply Z.pow_le_mono_r; lia). pose proof MAXV_big as M.
  assert (L64 : 2 ^ 64 + 2 < 2 ^ 192) by reflexivity.
  assert (OU : 1 <= order < 2 ^ ubits). { split; [apply Ho|]. destruct arch_ok as (_ & U & _). destruct U as [->|[-> | ->]]; clear - Ho Hb; lia. }
  assert (SM : 2 ^ (bits - order) <= 2 ^ bits) by (apply Z.pow_le_mono_r; lia).
  induction fuel as [|fuel IH]; intros mult primes Hm Lm Hf; [clear - Lm Hf; lia|]. cbn [mult_loop].
  rewrite ubig_bit_len_spec by exact Hm. cbn [lift rbind]. rewrite bitlen_le by (clear - Lm Ho; lia).
  destruct (Z.ltb_spec (uval mult) (2 ^ (bits - order))) as [L|G]; [|exists [], primes; constructor].
  set (n := uval mult * 2 ^ order + 1). assert (Ln : 3 <= n < 2 ^ bits). { unfold n. clear - L Lm EB E2 PP. nia. }
  assert (HM : n < MAXV) by (clear - Ln LB L64 M; lia). assert (HR : room_for_pow n n = true) by (apply small_room; clear - Ln LB; lia).
  destruct (is_prime_ends rounds attempts mult order Hm (proj1 Lm) OU HM HR Hr Ha) as (cs & v & R).
  destruct (literal_spec 2 ltac:(clear; lia)) as (c2 & E2' & Hc2 & Ec2).
  destruct (ubig_add_vv_yields mult c2 Hm Hc2) as [A2 _]. rewrite Ec2 in A2. destruct A2 as (m' & E' & Hm' & Em'); [clear - L SM LB L64 M; lia|].
  destruct (ubig_shl_r_yields mult order Hm ltac:(clear - OU; lia)) as [S1 _]. destruct S1 as (s & Es' & Hs & Es); [clear - HM; unfold n in HM; lia|].
  destruct (literal_spec 1 ltac:(clear; lia)) as (c & Ec' & Hc & Ec).
  destruct (ubig_add_vv_yields s c Hs Hc) as [A1 _]. rewrite Es, Ec in A1. fold n in A1. destruct (A1 HM) as (p & Ep' & Hp & Ep).
  destruct (IH m' (if v then primes ++ [p] else primes) Hm' ltac:(rewrite Em'; clear - L Lm; lia) ltac:(rewrite Em'; clear - Hf; lia)) as (cs' & l & R').
  exists (cs ++ cs'), l. apply (runs_bind _ _ cs (Some v) cs'); [exact R|]. unfold ubig_add_assign_v.
  destruct v; cbn [bind]; [rewrite Es', Ec'; cbn [bind]; rewrite Ep'; cbn [bind]|]; rewrite E2'; cbn [bind]; rewrite E'; cbn [bind lift rbind]; exact R'.
Qed.

(** ** The loop over the orders *)

Definition found (bits order : Z) (primes : list ubig) : Prop :=
  Forall ubig_ok primes /\ NoDup (map uval primes) /\ (forall p, In p (map uval primes) <-> suitable bits order p) /\
  forall l, NoDup l -> Forall (suitable bits (order + 1)) l -> (length l < 3)%nat.

Lemma found_few bits order primes l : found bits order primes -> NoDup l -> Forall (suitable bits order) l -> (length l <= length primes)%nat.
Proof.
  intros (_ & _ & IN & _) ND F. rewrite <- (map_length uval primes). apply NoDup_incl_length; [exact ND|].
  intros p Hp. apply IN. rewrite Forall_forall in F. apply F. exact Hp.
Qed.

Lemma found_order bits order primes : 3 <= bits -> 1 <= order -> found bits order primes -> (length primes < 3)%nat -> 2 <= order.
Proof.
  intros Hb Ho F L. destruct (Z.eq_dec order 1) as [-> |N]; [|clear - N Ho; lia]. exfalso. destruct (three_suitable bits Hb) as [ND FA].
  pose proof (found_few bits 1 primes _ F ND FA) as C. cbn [length] in C. clear - C L. lia.
Qed.

Lemma found_step bits order primes l extra : 2 <= order <= bits -> found bits order primes -> (length primes < 3)%nat ->
  Forall ubig_ok l -> map uval l = map uval primes ++ extra -> NoDup extra ->
  (forall p, In p extra <-> prime p /\ exists m, Z.odd m = true /\ 1 <= m < 2 ^ (bits - (order - 1)) /\ p = m * 2 ^ (order - 1) + 1) ->
  found bits (order - 1) l.
Proof.
  intros Ho (F1 & F2 & F3 & F4) L Hl El ND IN. split; [exact Hl|]. rewrite El. split; [|split].
  - apply nodup_app; [exact F2|exact ND|]. intros p Hp Hq. apply F3 in Hp as (_ & [t Et] & _). apply IN in Hq as (_ & m & Om & _ & E).
    destruct (two_pow_step order ltac:(clear - Ho; lia)) as [E2 PP]. assert (K : m = 2 * t) by (clear - E Et E2 PP; nia).
    rewrite K, Z.odd_mul in Om. discriminate.
  - intros p. rewrite in_app_iff, F3, IN, suitable_step by (clear - Ho; lia). tauto.
  - replace (order - 1 + 1) with order by (clear; lia). intros l' ND' FA'.
    pose proof (found_few bits order primes l' (conj F1 (conj F2 (conj F3 F4))) ND' FA') as C. clear - C L. lia.
Qed.

Lemma order_loop_spec bits rounds attempts : 3 <= bits <= 64 -> forall fuel order primes, 1 <= order <= bits -> order < Z.of_nat fuel -> found bits order primes ->
  all (order_loop fuel rounds attempts bits order primes) (fun o => o = Ok None \/
    exists order' l, o = Ok (Some (order', l)) /\ 1 <= order' < bits /\ found bits order' l /\ (3 <= length l)%nat) /\
  ((0 < rounds)%nat -> (0 < attempts)%nat -> exists cs x, runs (order_loop fuel rounds attempts bits order primes) cs (Ok (Some x))).
Proof.
  intros Hb. induction fuel as [|fuel IH]; intros order primes Ho Hf F; [clear - Ho Hf; lia|]. cbn [order_loop].
  destruct (Nat.ltb_spec (length primes) 3) as [L|G].
  - pose proof (found_order bits order primes (proj1 Hb) (proj1 Ho) F L) as Ho2.
    destruct (Z.ltb_spec 1 order) as [_|C]; [|clear - C Ho2; lia]. cbn [bind assert].
    destruct (literal_spec 1 ltac:(clear; lia)) as (one & -> & H1 & E1). cbn [lift rbind].
    assert (PB : 0 < 2 ^ (bits - (order - 1))) by (apply Z.pow_pos_nonneg; clear - Ho; lia).
    assert (Lo : 1 <= order - 1 < bits) by (clear - Ho Ho2; lia). set (n := S (Z.to_nat (2 ^ (bits - (order - 1))))).
    assert (Ln : 2 ^ (bits - (order - 1)) + 1 < uval one + Z.of_nat n) by (unfold n; rewrite E1; clear - PB; lia).
    assert (Lm : 1 <= uval one <= 2 ^ (bits - (order - 1)) + 1) by (rewrite E1; clear - PB; lia).
    pose proof (mult_loop_spec bits (order - 1) rounds attempts Lo (proj2 Hb) n one primes H1 ltac:(rewrite E1; reflexivity) Lm Ln (proj1 F)) as MS.
    rewrite E1 in MS. split.
    + apply all_bind. apply (all_impl _ _ _) with (2 := MS).
      intros o [-> |(l & extra & -> & Hl & El & ND & IN)]; [left; reflexivity|].
      apply IH; [clear - Lo; lia|clear - Hf; lia|]. apply (found_step bits order primes l extra); try assumption. clear - Ho Ho2; lia.
    + intros Hr Ha. destruct (mult_loop_ends bits (order - 1) rounds attempts Lo (proj2 Hb) Hr Ha n one primes H1 Lm Ln) as (cs & l & R).
      destruct (all_runs _ _ MS cs _ R) as [C|(l' & extra & C & Hl & El & ND & IN)]; [discriminate|]. injection C as <-.
      destruct (IH (order - 1) l) as [_ IE]; [clear - Lo; lia|clear - Hf; lia| |].
      { apply (found_step bits order primes l extra); try assumption. clear - Ho Ho2; lia. }
      destruct (IE Hr Ha) as (cs' & x & R'). exists (cs ++ cs'), x. apply (runs_bind _ _ cs (Some l) cs'); [exact R|exact R'].
  - split; [|intros _ _; exists [], (order, primes); constructor].
    right. exists order, primes. split; [reflexivity|]. split; [|split; [exact F|exact G]].
    split; [apply Ho|]. destruct (Z.eq_dec order bits) as [-> |N]; [|clear - N Ho; lia]. exfalso.
    destruct F as (_ & _ & IN & _). destruct primes as [|p primes]; [cbn in G; clear - G; lia|].
    apply (suitable_none bits (uval p)). apply IN. left. reflexivity.
Qed.

(** ** Sorting *)

Lemma insert_sorted_spec x : ubig_ok x -> forall l, Forall ubig_ok l -> StronglySorted Z.le (map uval l) ->
  exists s, insert_sorted x l = Ok s /\ Forall ubig_ok s /\ Permutation (uval x :: map uval l) (map uval s) /\ StronglySorted Z.le (map uval s).
Proof.
  intros Hx. induction l as [|y l IH]; intros F S0; cbn [insert_sorted].
  - exists [x]. split; [reflexivity|]. split; [apply Forall_cons; [exact Hx|apply Forall_nil]|]. split; [apply Permutation_refl|].
    apply SSorted_cons; [apply SSorted_nil|apply Forall_nil].
  - inversion F as [|? ? Hy F']; subst. cbn [map] in S0. inversion S0 as [|? ? S1 S2]; subst. rewrite ubig_le_spec by assumption. cbn [bind].
    destruct (Z.leb_spec (uval x) (uval y)) as [L|G].
    + exists (x :: y :: l). split; [reflexivity|]. split; [apply Forall_cons; assumption|]. split; [apply Permutation_refl|].
      cbn [map]. apply SSorted_cons; [exact S0|]. apply Forall_cons; [exact L|]. apply Forall_forall. intros z Hz. rewrite Forall_forall in S2. specialize (S2 z Hz). lia.
    + destruct (IH F' S1) as (s & -> & Hs & Ps & Ss). cbn [bind]. exists (y :: s). split; [reflexivity|]. split; [apply Forall_cons; assumption|]. cbn [map]. split.
      * apply perm_trans with (uval y :: uval x :: map uval l); [apply perm_swap|apply perm_skip; exact Ps].
      * apply SSorted_cons; [exact Ss|]. apply Forall_forall. intros z Hz. apply Permutation_sym in Ps. apply (Permutation_in _ Ps) in Hz.
        destruct Hz as [<- |Hz]; [lia|]. rewrite Forall_forall in S2. exact (S2 z Hz).
Qed.

Lemma sort_numbers_spec l : Forall ubig_ok l ->
  exists s, sort_numbers l = Ok s /\ Forall ubig_ok s /\ Permutation (map uval l) (map uval s) /\ StronglySorted Z.le (map uval s).
Proof.
  induction 1 as [|x l Hx F IH]; cbn [sort_numbers].
  - exists []. split; [reflexivity|]. split; [apply Forall_nil|]. split; [apply Permutation_refl|apply SSorted_nil].
  - destruct IH as (t & -> & Ht & Pt & St). cbn [bind]. destruct (insert_sorted_spec x Hx t Ht St) as (s & -> & Hs & Ps & Ss).
    exists s. split; [reflexivity|]. split; [exact Hs|]. split; [|exact Ss]. cbn [map]. apply perm_trans with (uval x :: map uval t); [apply perm_skip; exact Pt|exact Ps].
Qed.

Lemma sorted_strict l : StronglySorted Z.le l -> NoDup l -> StronglySorted Z.lt l.
Proof.
  induction 1 as [|x l S0 IH F]; intros ND; [apply SSorted_nil|]. inversion ND as [|? ? N ND']; subst. apply SSorted_cons; [apply IH; exact ND'|].
  apply Forall_forall. intros y Hy. rewrite Forall_forall in F. specialize (F y Hy). assert (x <> y) by (intros ->; contradiction). lia.
Qed.

(** ** Roots and range *)

Lemma roots_of_spec bits order tries l : 1 <= order < bits -> bits <= 64 -> Forall ubig_ok l -> (forall p, In p (map uval l) -> suitable bits order p) ->
  (roots_of tries l order = Ok None /\ Z.of_nat tries < 2 ^ bits) \/
  exists roots, roots_of tries l order = Ok (Some roots) /\ Forall ubig_ok roots /\ Forall2 (least_root order) (map uval l) (map uval roots).
Proof.
  intros Ho Hb. induction 1 as [|p l Hp F IH]; intros SU; cbn [roots_of].
  - right. exists []. split; [reflexivity|]. split; [apply Forall_nil|apply Forall2_nil].
  - destruct (SU (uval p) (or_introl eq_refl)) as (P & D & L). pose proof (prime_ge_2 _ P) as G2.
    assert (L64 : uval p < 2 ^ 64). { apply Z.lt_le_trans with (2 ^ bits); [exact L|]. apply Z.pow_le_mono_r; clear - Hb Ho; lia. }
    destruct (two_pow_step order (proj1 Ho)) as [E2 PP].
    assert (LE : 2 ^ order <= uval p - 1) by (apply Z.divide_pos_le; [clear - G2; lia|exact D]).
    destruct (find_root_spec p order Hp P (proj1 Ho)) as (g & LR & FR).
    { destruct arch_ok as (_ & U & _). destruct U as [->|[-> | ->]]; clear - Ho Hb; lia. }
    { exact D. }
    { apply small_room; [clear - G2 L64; lia|clear - LE E2 PP; lia]. }
    specialize (FR tries). destruct (Z.leb_spec g (Z.of_nat tries)) as [LG|LG].
    + destruct FR as (u & -> & Hu & Eu). cbn [bind]. destruct IH as [[-> LG']|(roots & -> & Hr & Fr)]; [intros q Hq; apply SU; right; exact Hq| |].
      * left. split; [reflexivity|exact LG'].
      * right. exists (u :: roots). split; [reflexivity|]. split; [apply Forall_cons; assumption|]. cbn [map]. apply Forall2_cons; [rewrite Eu; exact LR|exact Fr].
    + left. rewrite FR. split; [reflexivity|]. destruct LR as ((_ & LR) & _). clear - LR L LG. lia.
Qed.

Lemma multiply_all_spec l : forall range, ubig_ok range -> Forall (fun p => ubig_ok p /\ 1 <= uval p) l -> uval range * fold_right Z.mul 1 (map uval l) < MAXV ->
  exists u, multiply_all range l = Ok u /\ ubig_ok u /\ uval u = uval range * fold_right Z.mul 1 (map uval l).
Proof.
  induction l as [|p l IH]; intros range Hr F L; cbn [multiply_all map fold_right] in *.
  - exists range. split; [reflexivity|]. split; [exact Hr|]. lia.
  - inversion F as [|? ? [Hp P1] F']; subst. assert (PL : 1 <= fold_right Z.mul 1 (map uval l)).
    { clear - F'. induction F' as [|q l [_ Q1] F IH]; cbn [map fold_right]; [lia|nia]. }
    pose proof (ubig_ok_val range Hr) as Vr.
    destruct (ubig_mul_vr_yields range p Hr Hp) as [M _]. destruct M as (u & E & Hu & Eu); [clear - L P1 PL Vr; nia|].
    unfold ubig_mul_assign_r. rewrite E. cbn [bind]. destruct (IH u Hu F') as (v & -> & Hv & Ev); [rewrite Eu; clear - L; lia|].
    exists v. split; [reflexivity|]. split; [exact Hv|]. rewrite Ev, Eu. ring.
Qed.

Lemma check_range_spec bits order l : 1 <= order < bits -> bits <= 64 -> Forall ubig_ok l -> (forall p, In p (map uval l) -> suitable bits order p) -> (3 <= length l)%nat ->
  check_range bits order l = if enough bits order (map uval l) then Ok tt else Panic Internal.
Proof.
  intros Ho Hb F SU L3. unfold check_range. pose proof MAXV_big as M.
  assert (LB : 2 ^ bits <= 2 ^ 64) by (apply Z.pow_le_mono_r; clear - Ho Hb; lia).
  assert (P1 : 2 <= 2 ^ bits) by (rewrite <- (Z.pow_1_r 2) at 1; apply Z.pow_le_mono_r; clear - Ho; lia).
  assert (LO : 2 ^ (order - 1) <= 2 ^ 62) by (apply Z.pow_le_mono_r; clear - Ho Hb; lia).
  destruct (two_pow_step order (proj1 Ho)) as [_ PP].
  assert (HU : forall k, 0 <= k <= 64 -> 0 <= k < 2 ^ ubits). { intros k Hk. destruct arch_ok as (_ & U & _). destruct U as [->|[-> | ->]]; clear - Hk; lia. }
  destruct (literal_spec 1 ltac:(clear; lia)) as (c & -> & Hc & Ec). cbn [bind].
  destruct (ubig_shl_v_yields c bits Hc (HU bits ltac:(clear - Ho Hb; lia))) as [S1 _]. rewrite Ec, Z.mul_1_l in S1.
  destruct S1 as (a & -> & Ha & Ea). { apply Z.le_lt_trans with (2 ^ 64); [exact LB|]. apply Z.lt_le_trans with (2 ^ 192); [reflexivity|exact M]. }
  cbn [bind]. destruct (ubig_sub_vv_yields a c Ha Hc) as [S2 _]. rewrite Ea, Ec in S2. destruct (S2 ltac:(clear - P1; lia)) as [S3 _].
  set (W := 2 ^ bits - 1) in *. assert (HW : 1 <= W < 2 ^ 64) by (unfold W; clear - P1 LB; lia).
  destruct S3 as (w & -> & Hw & Ew). { apply Z.lt_le_trans with (2 ^ 192); [apply Z.lt_trans with (2 ^ 64); [apply HW|reflexivity]|exact M]. }
  cbn [bind]. destruct (ubig_mul_rr_yields w w Hw Hw) as [S4 _]. rewrite Ew in S4.
  assert (HWW : 1 <= W * W < 2 ^ 128). { change (2 ^ 128) with (2 ^ 64 * 2 ^ 64). clear - HW. nia. }
  destruct S4 as (sq & -> & Hsq & Esq). { apply Z.lt_le_trans with (2 ^ 192); [apply Z.lt_trans with (2 ^ 128); [apply HWW|reflexivity]|exact M]. }
  cbn [bind]. destruct (ubig_shl_v_yields sq (order - 1) Hsq (HU (order - 1) ltac:(clear - Ho Hb; lia))) as [S5 _]. rewrite Esq in S5.
  assert (HN : W * W * 2 ^ (order - 1) + 1 < MAXV).
  { apply Z.lt_le_trans with (2 ^ 192); [|exact M]. apply Z.le_lt_trans with (2 ^ 128 * 2 ^ 62 + 1); [|reflexivity]. clear - HWW LO PP. nia. }
  destruct S5 as (s & -> & Hs & Es); [clear - HN; lia|]. cbn [bind].
  destruct (ubig_add_vv_yields s c Hs Hc) as [S6 _]. rewrite Es, Ec in S6. destruct (S6 HN) as (need & -> & Hneed & Eneed). cbn [bind].
  destruct (Nat.leb_spec 3 (length l)) as [_|C]; [|clear - C L3; lia]. cbn [bind assert].
  set (t := skipn (length l - 3) l).
  assert (Ft : Forall (fun p => ubig_ok p /\ 1 <= uval p) t /\ Forall (fun p => uval p < 2 ^ 64) t).
  { assert (K : forall p, In p t -> ubig_ok p /\ 1 <= uval p /\ uval p < 2 ^ 64).
    { intros p Hp. assert (Hp' : In p l). { unfold t in Hp. rewrite <- (firstn_skipn (length l - 3) l). apply in_or_app. right. exact Hp. }
      rewrite Forall_forall in F. split; [apply F; exact Hp'|]. destruct (SU (uval p) (in_map uval l p Hp')) as (P & _ & L). pose proof (prime_ge_2 _ P).
      clear - H L LB. lia. }
    split; apply Forall_forall; intros p Hp; destruct (K p Hp) as (K1 & K2 & K3); [split|]; assumption. }
  destruct Ft as [Ft1 Ft2].
  assert (LT : length t = 3%nat) by (unfold t; rewrite skipn_length; clear - L3; lia).
  assert (RG : 1 * fold_right Z.mul 1 (map uval t) < MAXV).
  { apply Z.lt_le_trans with (2 ^ 192); [|exact M]. destruct t as [|p1 [|p2 [|p3 [|]]]]; try discriminate LT.
    inversion Ft1 as [|? ? [_ Q1] Ft1']; subst. inversion Ft1' as [|? ? [_ Q2] Ft1'']; subst. inversion Ft1'' as [|? ? [_ Q3] _]; subst.
    inversion Ft2 as [|? ? R1 Ft2']; subst. inversion Ft2' as [|? ? R2 Ft2'']; subst. inversion Ft2'' as [|? ? R3 _]; subst.
    cbn [map fold_right]. change (2 ^ 192) with (2 ^ 64 * (2 ^ 64 * 2 ^ 64)). set (X := 2 ^ 64) in *.
    assert (uval p2 * uval p3 < X * X) by (clear - Q2 Q3 R2 R3; nia). clear - H Q1 Q2 Q3 R1 R2 R3. nia. }
  rewrite <- Ec in RG at 1. destruct (multiply_all_spec t c Hc Ft1 RG) as (range & -> & Hrange & Erange). cbn [bind].
  rewrite ubig_le_spec by assumption. cbn [bind]. rewrite Eneed, Erange, Ec, Z.mul_1_l. unfold enough. fold W. rewrite map_length, skipn_map. fold t.
  destruct (Z.ltb_spec (W * W * 2 ^ (order - 1)) (fold_right Z.mul 1 (map uval t))) as [L|G];
    destruct (Z.leb_spec (W * W * 2 ^ (order - 1) + 1) (fold_right Z.mul 1 (map uval t))) as [L'|G']; try reflexivity; clear - L G' || clear - G L'; lia.
Qed.

Lemma found_start bits : 3 <= bits -> found bits bits [].
Proof.
  intros Hb. split; [apply Forall_nil|]. split; [apply NoDup_nil|]. split.
  - intros p. cbn [map In]. split; [tauto|]. intros C. elim (suitable_none bits p C).
  - intros l ND FA. destruct l as [|p l]; [cbn; lia|]. inversion FA as [|? ? C _]; subst.
    elim (suitable_none bits p). apply (suitable_less bits bits (bits + 1)); [clear - Hb; lia|exact C].
Qed.

Lemma finish_spec bits order tries l : 1 <= order < bits -> bits <= 64 -> found bits order l -> (3 <= length l)%nat ->
  let m := (primes <- sort_numbers l ;; o <- roots_of tries primes order ;;
            match o with
            | None => Ok None
            | Some roots => _ <- check_range bits order primes ;; Ok (Some (order, primes, roots))
            end) in
  (m = Ok None /\ Z.of_nat tries < 2 ^ bits) \/ exists primes roots, search_result bits order primes roots /\
    if enough bits order primes
    then exists us rs, m = Ok (Some (order, us, rs)) /\ Forall ubig_ok us /\ Forall ubig_ok rs /\ map uval us = primes /\ map uval rs = roots
    else m = Panic Internal.
Proof.
  intros Ho Hb (F1 & F2 & F3 & F4) L3. cbv zeta.
  destruct (sort_numbers_spec l F1) as (s & -> & Hs & Ps & Ss). cbn [bind].
  assert (SU : forall p, In p (map uval s) <-> suitable bits order p).
  { intros p. rewrite <- F3. split; apply Permutation_in; [apply Permutation_sym|]; exact Ps. }
  assert (LS : (3 <= length s)%nat). { apply Permutation_length in Ps. rewrite !map_length in Ps. rewrite <- Ps. exact L3. }
  destruct (roots_of_spec bits order tries s Ho Hb Hs (fun p H => proj1 (SU p) H)) as [[-> LT]|(roots & -> & Hroots & FR)]; [left; split; [reflexivity|exact LT]|].
  cbn [bind]. rewrite (check_range_spec bits order s Ho Hb Hs (fun p H => proj1 (SU p) H) LS).
  assert (SR : search_result bits order (map uval s) (map uval roots)).
  { split; [exact Ho|]. split; [rewrite map_length; exact LS|]. split; [exact F4|].
    split; [apply sorted_strict; [exact Ss|apply (Permutation_NoDup Ps F2)]|]. split; [exact SU|exact FR]. }
  right. exists (map uval s), (map uval roots). split; [exact SR|].
  destruct (enough bits order (map uval s)); cbn [bind]; [|reflexivity].
  exists s, roots. repeat split; assumption || reflexivity.
Qed.

Theorem print_primes_spec rounds attempts tries bits cs o : 3 <= bits <= 64 -> runs (print_primes rounds attempts tries bits) cs o ->
  o = Ok None \/ exists order primes roots, search_result bits order primes roots /\
    if enough bits order primes
    then exists us rs, o = Ok (Some (order, us, rs)) /\ Forall ubig_ok us /\ Forall ubig_ok rs /\ map uval us = primes /\ map uval rs = roots
    else o = Panic Internal.
Proof.
  intros Hb. revert cs o. apply all_runs. unfold print_primes. apply all_bind.
  destruct (order_loop_spec bits rounds attempts Hb (S (Z.to_nat bits)) bits [] ltac:(clear - Hb; lia) ltac:(clear - Hb; lia) (found_start bits (proj1 Hb))) as [OS _].
  apply (all_impl _ _ _) with (2 := OS).
  intros o [-> |(order & l & -> & Ho & F & L3)]; [left; reflexivity|].
  destruct (finish_spec bits order tries l Ho (proj2 Hb) F L3) as [[-> _]|(primes & roots & SR & R)]; [left; reflexivity|].
  destruct (enough bits order primes) eqn:EN.
  - destruct R as (us & rs & -> & R). cbn [lift rbind all]. right. exists order, primes, roots. split; [exact SR|]. rewrite EN. exists us, rs. split; [reflexivity|exact R].
  - rewrite R. cbn [lift rbind all]. right. exists order, primes, roots. split; [exact SR|]. rewrite EN. reflexivity.
Qed.

Theorem print_primes_ends rounds attempts tries bits : 3 <= bits <= 64 -> (0 < rounds)%nat -> (0 < attempts)%nat -> 2 ^ bits <= Z.of_nat tries ->
  exists cs o, runs (print_primes rounds attempts tries bits) cs o /\ o <> Ok None.
Proof.
  intros Hb Hr Ha Ht. unfold print_primes.
  destruct (order_loop_spec bits rounds attempts Hb (S (Z.to_nat bits)) bits [] ltac:(clear - Hb; lia) ltac:(clear - Hb; lia) (found_start bits (proj1 Hb))) as [OS OE].
  destruct (OE Hr Ha) as (cs & x & R). destruct (all_runs _ _ OS cs _ R) as [C|(order & l & C & Ho & F & L3)]; [discriminate|]. injection C as ->.
  destruct (finish_spec bits order tries l Ho (proj2 Hb) F L3) as [[_ LT]|(primes & roots & SR & E)]; [clear - LT Ht; lia|].
  set (m := bind (sort_numbers l) _) in E. exists (cs ++ []), m. split.
  - apply (runs_bind _ _ cs (Some (order, l)) []); [exact R|]. cbv beta iota. fold m.
    destruct (enough bits order primes); [destruct E as (us & rs & -> & _)|rewrite E]; cbn [lift rbind]; constructor.
  - destruct (enough bits order primes); [destruct E as (us & rs & -> & _)|rewrite E]; discriminate.
Qed.
End Search.
