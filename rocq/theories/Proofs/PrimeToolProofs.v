(** The tool that finds primes: src of the prime test and of the search for roots. *)
From Coq Require Import ZArith Znumtheory Zpow_facts QArith Lia Lqa.
From Verif Require Import Model.Base Model.Words Model.Buffer Model.UBig Model.IBig Model.Convert Model.AddOps Model.MulOps
  Model.ShiftOps Model.Bits Model.DivOps Model.Gcd Model.Rand Model.Modular Model.Tools
  Spec.Val Spec.Num Spec.Prim Spec.Modular Spec.Rand Spec.Order
  Proofs.Basics Proofs.BufferProofs Proofs.ConvertProofs Proofs.AddOpsProofs Proofs.MulOpsProofs Proofs.ShiftOpsProofs Proofs.DivOpsProofs
  Proofs.GcdProofs Proofs.RandProofs Proofs.ModularProofs Proofs.ModularApi Proofs.ModularRoom Proofs.ModularTheorems
  Proofs.OrderProofs Proofs.PrimitiveRoots Proofs.PrimeTest.
Open Scope Z_scope.

(** ** Runs *)

Lemma runs_all {T} (m : rand T) (P : res T -> Prop) : (forall cs r, runs m cs r -> P r) -> all m P.
Proof.
  induction m as [x|p|n k IH]; cbn [all]; intros H.
  - apply (H []). constructor.
  - apply (H []). constructor.
  - intros c Hc. apply IH. intros cs r R. apply (H (c :: cs)). constructor; assumption.
Qed.

Lemma total_pos n f : (0 < total n f)%Q -> exists c, 0 <= c < Z.of_nat n /\ (0 < f c)%Q.
Proof.
  induction n as [|n IH]; cbn [total]; intros H; [exfalso; apply (Qlt_irrefl 0); exact H|].
  destruct (Qlt_le_dec 0 (f (Z.of_nat n))) as [L|G].
  - exists (Z.of_nat n). split; [lia|exact L].
  - destruct IH as (c & Hc & L); [lra|]. exists c. split; [lia|exact L].
Qed.

(** Something that is possible happens for some answers of the generator. *)
Lemma prob_runs {T} (m : rand T) (P : res T -> bool) : (0 < prob m P)%Q -> exists cs r, runs m cs r /\ P r = true.
Proof.
  induction m as [x|p|n k IH]; cbn [prob]; intros H.
  - exists [], (Ok x). split; [constructor|]. destruct (P (Ok x)); [reflexivity|exfalso; apply (Qlt_irrefl 0); exact H].
  - exists [], (Panic p). split; [constructor|]. destruct (P (Panic p)); [reflexivity|exfalso; apply (Qlt_irrefl 0); exact H].
  - destruct (Z_lt_ge_dec 0 n) as [Hn|Hn].
    + assert (T0 : (0 < total (Z.to_nat n) (fun c => prob (k c) P))%Q).
      { apply (Qmult_lt_r _ _ (/ inject_Z n)); [apply Qinv_lt_0_compat; change 0%Q with (inject_Z 0); rewrite <- Zlt_Qlt; exact Hn|].
        rewrite Qmult_0_l. exact H. }
      apply total_pos in T0 as (c & Hc & L). rewrite Z2Nat.id in Hc by lia. destruct (IH c L) as (cs & r & R & E).
      exists (c :: cs), r. split; [constructor; assumption|exact E].
    + exfalso. replace (Z.to_nat n) with 0%nat in H by lia. cbn [total] in H. unfold Qdiv in H. rewrite Qmult_0_l in H. apply (Qlt_irrefl 0). exact H.
Qed.

Lemma runs_bind {S T} (m : rand S) (k : S -> rand T) cs x cs' r : runs m cs (Ok x) -> runs (k x) cs' r -> runs (rbind m k) (cs ++ cs') r.
Proof.
  intros R R'. remember (Ok x) as o eqn:Eo. induction R; cbn [rbind app].
  - injection Eo as ->. exact R'.
  - discriminate.
  - constructor; auto.
Qed.

Section PrimeTool.
Context {A : Arch} {AOK : ArchOk A}.

Lemma all_lift {T} (m : res T) (P : res T -> Prop) : P m -> all (lift m) P.
Proof. destruct m; exact (fun H => H). Qed.

Lemma literal_spec v : 0 <= v < 2 ^ 128 -> returns (literal v) v.
Proof. intros H. apply ubig_from_unsigned_spec; [do 4 right; left; reflexivity|exact H]. Qed.

(** ** Room *)

Lemma block_fits_le k l : k <= l -> block_fits l = true -> block_fits k = true.
Proof.
  unfold block_fits. intros L H. apply Z.ltb_lt in H. apply Z.ltb_lt. pose proof wbits_ge. assert (0 <= wbits / 8) by (apply Z.div_pos; lia). nia.
Qed.

Lemma words_in_pos n : 1 <= words_in n.
Proof. unfold words_in. pose proof wbits_ge. assert (0 <= Z.log2 n / wbits) by (apply Z.div_pos; [apply Z.log2_nonneg|lia]). lia. Qed.

Lemma room_pow_le n e f : e <= f -> room_for_pow n f = true -> room_for_pow n e = true.
Proof.
  unfold room_for_pow. intros L H. destruct (n <? B); [reflexivity|]. cbn [orb] in *. destruct (Z.ltb_spec e 2) as [|G]; [reflexivity|]. cbn [orb].
  destruct (Z.ltb_spec f 2); [lia|]. cbn [orb] in H. revert H. apply block_fits_le. pose proof (words_in_pos n).
  assert (Z.log2 e <= Z.log2 f) by (apply Z.log2_le_mono; exact L). assert ((Z.log2 e + 1) / 2 <= (Z.log2 f + 1) / 2) by (apply Z.div_le_mono; lia). nia.
Qed.

Lemma room_pow_mul n e : 2 <= e -> room_for_pow n e = true -> room_for_mul n = true.
Proof.
  unfold room_for_pow, room_for_mul. intros He H. destruct (n <? B); [reflexivity|]. cbn [orb] in *. destruct (Z.ltb_spec e 2); [lia|]. cbn [orb] in H.
  revert H. apply block_fits_le. pose proof (words_in_pos n). assert (0 <= (Z.log2 e + 1) / 2) by (apply Z.div_pos; [pose proof (Z.log2_nonneg e); lia|lia]). nia.
Qed.

(** ** The prime test *)

Lemma mul_rr_spec r n x a y b : room_for_mul n = true -> element r n x a -> element r n y b -> yields_mod r n (mod_mul_rr x y) (a * b).
Proof.
  intros R Hx Hy. pose proof (muls_spec r n x a y b Hx Hy) as F. rewrite Forall_forall in F. specialize (F mod_mul_rr).
  unfold yields_mod_if in F. rewrite R in F. apply F. do 3 right. left. reflexivity.
Qed.

Lemma minus_one_mod n : 1 < n -> -1 mod n = n - 1.
Proof. intros H. replace (-1) with (n - 1 + (-1) * n) by ring. rewrite Z.mod_add by lia. apply Z.mod_small. lia. Qed.

Lemma rabin_loop_spec r n one : 2 < n -> room_for_mul n = true -> element r n one 1 ->
  forall k i p b passed, element r n p (b mod n) ->
  exists p' passed', rabin_loop k i one p passed = Ok (p', passed') /\ element r n p' (b ^ 2 ^ Z.of_nat k mod n) /\
    ((exists j, 0 <= j < Z.of_nat k /\ b ^ 2 ^ j mod n = n - 1 /\ (forall l, j < l < Z.of_nat k -> b ^ 2 ^ l mod n <> n - 1) /\ passed' = Some (i + j + 1)) \/
     ((forall l, 0 <= l < Z.of_nat k -> b ^ 2 ^ l mod n <> n - 1) /\ passed' = passed)).
Proof.
  intros Hn HR H1. induction k as [|k IH]; intros i p b passed Hp; cbn [rabin_loop].
  - exists p, passed. split; [reflexivity|]. split; [cbn [Z.of_nat]; rewrite Z.pow_0_r, Z.pow_1_r; exact Hp|]. right. split; [intros; lia|reflexivity].
  - destruct (proj2 (neg_spec r n one 1 H1)) as (m & -> & Hm). cbn [bind]. change (- (1)) with (-1) in Hm. rewrite minus_one_mod in Hm by lia.
    rewrite (eq_spec r n p _ m _ Hp Hm). cbn [bind].
    destruct (mul_rr_spec r n p _ p _ HR Hp Hp) as (p2 & -> & Hp2). cbn [bind].
    rewrite <- Zmult_mod in Hp2.
    destruct (IH (i + 1) p2 (b * b) (if b mod n =? n - 1 then Some (i + 1) else passed) Hp2) as (p' & passed' & -> & Hp' & D).
    exists p', passed'. split; [reflexivity|].
    assert (SQ : forall l, 0 <= l -> (b * b) ^ 2 ^ l = b ^ 2 ^ (l + 1)).
    { intros l Hl. rewrite Z.pow_mul_l, <- Z.pow_add_r by (apply Z.pow_nonneg; lia). f_equal. rewrite Z.pow_add_r, Z.pow_1_r by lia. ring. }
    split. { rewrite SQ in Hp' by lia. replace (Z.of_nat (S k)) with (Z.of_nat k + 1) by lia. exact Hp'. }
    destruct D as [(j & Hj & Ej & Nj & EP)|[N EP]].
    + left. exists (j + 1). split; [lia|]. rewrite SQ in Ej by lia. split; [exact Ej|]. split; [|rewrite EP; f_equal; lia].
      intros l Hl. assert (L0 : 0 <= l - 1) by (clear - Hl Hj; lia). assert (L1 : j < l - 1 < Z.of_nat k) by (clear - Hl Hj; lia).
      specialize (Nj (l - 1) L1). rewrite (SQ _ L0) in Nj. replace (l - 1 + 1) with l in Nj by (clear; lia). exact Nj.
    + assert (N' : forall l, 0 < l < Z.of_nat (S k) -> b ^ 2 ^ l mod n <> n - 1).
      { intros l Hl. assert (L0 : 0 <= l - 1) by (clear - Hl; lia). assert (L1 : 0 <= l - 1 < Z.of_nat k) by (clear - Hl; lia).
        specialize (N (l - 1) L1). rewrite (SQ _ L0) in N. replace (l - 1 + 1) with l in N by (clear; lia). exact N. }
      destruct (Z.eqb_spec (b mod n) (n - 1)) as [e|Ne].
      * left. exists 0. split; [lia|]. rewrite Z.pow_0_r, Z.pow_1_r. split; [exact e|]. split; [exact N'|]. rewrite EP. f_equal. lia.
      * right. split; [|exact EP]. intros l Hl. destruct (Z.eq_dec l 0) as [-> |]; [rewrite Z.pow_0_r, Z.pow_1_r; exact Ne|]. apply N'. lia.
Qed.

Lemma loop_bound_val u : ubig_ok u -> loop_bound u = Z.to_nat (uval u).
Proof.
  intros H. unfold loop_bound. f_equal. destruct u as [w|b]; cbn [as_words uval].
  - destruct (Z.eqb_spec w 0) as [-> |]; cbn [fold_right]; lia.
  - induction (words b) as [|w t IH]; cbn [fold_right val]; [reflexivity|]. rewrite IH. reflexivity.
Qed.

Lemma divisor_loop_spec r n mult order base a one : ubig_ok mult -> 1 <= uval mult -> 1 <= order < 2 ^ ubits ->
  n = uval mult * 2 ^ order + 1 -> n < MAXV -> room_for_pow n n = true -> element r n base a -> element r n one 1 ->
  forall fuel div ok, ubig_ok div -> 2 <= uval div <= uval mult + 1 -> uval mult + 1 - uval div < Z.of_nat fuel ->
  exists g, divisor_loop fuel mult order base one div ok = Ok g /\
    (g = true <-> ok = true /\ forall d, uval div <= d <= uval mult -> (d | uval mult) -> a ^ (uval mult / d * 2 ^ order) mod n <> 1).
Proof.
  intros Hm H1 Ho En Hn HR Hb H1e. assert (PP : 2 <= 2 ^ order) by (rewrite <- (Z.pow_1_r 2) at 1; apply Z.pow_le_mono_r; lia).
  assert (M : uval mult + 1 < MAXV) by nia.
  induction fuel as [|fuel IH]; intros div ok Hd Ld Hf; [lia|]. cbn [divisor_loop].
  rewrite ubig_le_spec by assumption. cbn [bind]. destruct (Z.leb_spec (uval div) (uval mult)) as [L|G].
  - destruct (ubig_rem_rr_yields mult div Hm Hd) as [_ R]. destruct (R ltac:(lia)) as (rm & -> & Hrm & Erm). cbn [bind].
    destruct (literal_spec 0 ltac:(lia)) as (z & -> & Hz & Ez). cbn [bind].
    pose proof (ubig_eqb_spec rm z Hrm Hz) as EQ. rewrite Ez, Erm in EQ.
    match goal with |- exists g, (bind ?m _) = _ /\ _ =>
      assert (ST : exists ok', m = Ok ok' /\ (ok' = true <-> ok = true /\ ((uval div | uval mult) -> a ^ (uval mult / uval div * 2 ^ order) mod n <> 1))) end.
    { destruct (ubig_eqb rm z).
      - assert (D : (uval div | uval mult)) by (apply Z.mod_divide; [lia|tauto]).
        destruct (ubig_div_rr_yields mult div Hm Hd) as [_ Q]. destruct (Q ltac:(lia)) as (q & -> & Hq & Eq). cbn [bind].
        assert (LE : uval mult / uval div <= uval mult) by (apply Z.div_le_upper_bound; nia).
        destruct (ubig_shl_v_yields q order Hq ltac:(lia)) as [S1 _]. rewrite Eq in S1. destruct (S1 ltac:(nia)) as (e & -> & He & Ee). cbn [bind].
        destruct (pow_spec r n base a e Hb He) as (x & -> & Hx).
        { apply (room_pow_le n _ n); [|exact HR]. rewrite Ee. nia. }
        cbn [bind]. rewrite (eq_spec r n x _ one _ Hx H1e). cbn [bind]. rewrite Ee.
        destruct (Z.eqb_spec (a ^ (uval mult / uval div * 2 ^ order) mod n) 1) as [e1|N1]; eexists; (split; [reflexivity|]).
        + split; [discriminate|]. intros [_ K]. elim (K D e1).
        + split; [intros K; split; [exact K|intros _; exact N1]|intros [K _]; exact K].
      - assert (ND : ~ (uval div | uval mult)). { intros D. apply Z.mod_divide in D; [|lia]. destruct EQ as [_ EQ]. specialize (EQ D). discriminate. }
        eexists. split; [reflexivity|]. split; [intros K; split; [exact K|tauto]|intros [K _]; exact K]. }
    destruct ST as (ok' & -> & Hok). cbn [bind].
    destruct (literal_spec 1 ltac:(lia)) as (c & -> & Hc & Ec). cbn [bind].
    destruct (ubig_add_vv_yields div c Hd Hc) as [S1 _]. rewrite Ec in S1. assert (LM : uval div + 1 < MAXV) by (clear - L M; lia). destruct (S1 LM) as (d' & E' & Hd' & Ed').
    unfold ubig_add_assign_v. rewrite E'. cbn [bind].
    assert (L1 : 2 <= uval d' <= uval mult + 1) by (clear - Ed' L Ld; lia). assert (L2 : uval mult + 1 - uval d' < Z.of_nat fuel) by (clear - Ed' Hf; lia).
    destruct (IH d' ok' Hd' L1 L2) as (g & -> & Hg). exists g. split; [reflexivity|]. rewrite Hg, Hok. rewrite Ed'. split.
    + intros [[K1 K2] K3]. split; [exact K1|]. intros d Hdd DD. destruct (Z.eq_dec d (uval div)) as [-> |Nd]; [apply K2; exact DD|apply K3; [clear - Nd Hdd; lia|exact DD]].
    + intros [K1 K2]. split; [split; [exact K1|intros DD; apply K2; [clear - L; lia|exact DD]]|intros d Hdd DD; apply K2; [clear - Hdd; lia|exact DD]].
  - exists ok. split; [reflexivity|]. split; [intros K; split; [exact K|intros d Hdd; clear - G Hdd; lia]|intros [K _]; exact K].
Qed.

(** One round: what it says is true; a generator makes it say so if the number is prime,
    and a divisor if it is not. *)
Lemma prime_round_spec r n mult order base a one : ubig_ok mult -> 1 <= uval mult -> 1 <= order < 2 ^ ubits ->
  n = uval mult * 2 ^ order + 1 -> n < MAXV -> room_for_pow n n = true -> element r n base a -> element r n one 1 -> 1 <= a ->
  exists v, prime_round mult order one base = Ok v /\ (v = Some true -> prime n) /\ (v = Some false -> ~ prime n) /\
    (has_order a (n - 1) n -> v = Some true) /\ (1 < a -> (a | n) -> v = Some false).
Proof.
  intros Hm H1 Ho En Hn HR Hb H1e Ha. assert (PP : 2 <= 2 ^ order) by (rewrite <- (Z.pow_1_r 2) at 1; apply Z.pow_le_mono_r; lia).
  assert (Hn2 : 2 < n) by nia. pose proof (room_pow_mul n n ltac:(lia) HR) as HM.
  assert (P2 : 2 ^ order = 2 * 2 ^ (order - 1)) by (rewrite <- Z.pow_succ_r by lia; f_equal; lia).
  assert (PO : 0 < 2 ^ (order - 1)) by (apply Z.pow_pos_nonneg; lia).
  unfold prime_round. destruct (pow_spec r n base a mult Hb Hm) as (p & -> & Hp).
  { apply (room_pow_le n _ n); [nia|exact HR]. }
  cbn [bind]. rewrite (eq_spec r n p _ one _ Hp H1e). cbn [bind].
  destruct (rabin_loop_spec r n one Hn2 HM H1e (Z.to_nat order) 0 p (a ^ uval mult) (if a ^ uval mult mod n =? 1 then Some 0 else None) Hp)
    as (p' & passed & -> & Hp' & D). cbn [bind]. rewrite Z2Nat.id in Hp', D by lia. set (b := a ^ uval mult) in *.
  assert (BJ : forall j, 0 <= j -> b ^ 2 ^ j = a ^ (uval mult * 2 ^ j)).
  { intros j Hj. unfold b. rewrite <- Z.pow_mul_r by (try apply Z.pow_nonneg; lia). reflexivity. }
  assert (AR : 0 <= a < n) by apply Hb.
  (* what the Miller-Rabin part found *)
  assert (CASES : (passed = None /\ b mod n <> 1 /\ (forall l, 0 <= l < order -> b ^ 2 ^ l mod n <> n - 1)) \/
    (exists k, passed = Some k /\ b ^ 2 ^ order mod n = 1 /\ (k = order <-> b ^ 2 ^ (order - 1) mod n = n - 1) /\
       (b mod n = 1 \/ exists l, 0 <= l /\ b ^ 2 ^ l mod n = n - 1))).
  { destruct D as [(j & Hj & Ej & Nj & EP)|[N EP]].
    - right. exists (j + 1). split; [rewrite EP; f_equal; clear; lia|]. split; [apply (rabin_stays n b j order Hn2 Hj Ej)|].
      split; [|right; exists j; split; [apply Hj|exact Ej]]. split.
      + intros <-. replace (j + 1 - 1) with j by (clear; lia). exact Ej.
      + intros E. destruct (Z.eq_dec j (order - 1)) as [-> |NE]; [clear; lia|]. elim (Nj (order - 1)); [clear - Hj NE; lia|exact E].
    - destruct (Z.eqb_spec (b mod n) 1) as [e|Ne].
      + right. exists 0. split; [exact EP|]. split; [apply one_stays; [clear - Hn2; lia|clear - Ho; lia|exact e]|]. split; [|left; exact e]. split; [clear - Ho; lia|].
        intros E. elim (N (order - 1)); [clear - Ho; lia|exact E].
      + left. split; [exact EP|]. split; [exact Ne|exact N]. }
  destruct CASES as [(-> & NB & N)|(k & -> & EB & KO & ONE)].
  - exists (Some false). split; [reflexivity|]. split; [discriminate|]. split; [|split; [|reflexivity]].
    + intros _ P. apply NB. apply (rabin_prime n b P (Z.to_nat order)); rewrite Z2Nat.id by (clear - Ho; lia); [|exact N].
      rewrite BJ by (clear - Ho; lia). replace (uval mult * 2 ^ order) with (n - 1) by (clear - En; lia). apply fermat; [exact P|clear - AR Ha; lia].
    + intros G. exfalso. apply (N (order - 1)); [clear - Ho; lia|]. rewrite BJ by (clear - Ho; lia). subst n. apply generator_half; [exact H1|apply Ho|exact G].
  - rewrite (eq_spec r n p' _ one _ Hp' H1e), EB, Z.eqb_refl. cbn [bind assert].
    destruct (literal_spec 2 ltac:(lia)) as (two & -> & Htwo & Etwo). cbn [bind].
    destruct (divisor_loop_spec r n mult order base a one Hm H1 Ho En Hn HR Hb H1e (S (loop_bound mult)) two (k =? order) Htwo)
      as (g & -> & Hg). { rewrite Etwo. clear - H1. lia. } { rewrite (loop_bound_val mult Hm), Etwo. clear - H1. lia. }
    cbn [bind]. rewrite Z.eqb_eq, KO, BJ in Hg by (clear - Ho; lia). rewrite Etwo in Hg.
    assert (GEN : g = true <-> has_order a (n - 1) n).
    { rewrite Hg. clear Hg. subst n. split.
      - intros [K1 K2]. apply lucas; [exact H1|apply Ho|exact K1|exact K2].
      - intros G. split; [apply generator_half; [exact H1|apply Ho|exact G]|]. intros d Hd DD. destruct G as [_ G]. apply G.
        assert (Q : 1 <= uval mult / d < uval mult).
        { clear - Hd. split; [apply Z.div_le_lower_bound; lia|apply Z.div_lt; lia]. }
        clear - Q PP. nia. }
    exists (if g then Some true else None). split; [reflexivity|]. destruct g.
    + assert (G : has_order a (n - 1) n) by (apply GEN; reflexivity). assert (Hn1 : 1 < n) by (clear - Hn2; lia). pose proof (prime_by_generator a n Hn1 G) as P.
      split; [intros _; exact P|]. split; [discriminate|]. split; [reflexivity|].
      intros La DA. exfalso. apply prime_divisors in DA; [|exact P]. clear - DA La AR. lia.
    + split; [discriminate|]. split; [discriminate|]. split; [intros G; apply GEN in G; discriminate|].
      intros La DA. exfalso. destruct ONE as [E|(l & Hl & E)].
      * unfold b in E. exact (proj1 (divisor_powers a n (uval mult) La DA Hn2 H1) E).
      * rewrite BJ in E by exact Hl. assert (PL : 0 < 2 ^ l) by (apply Z.pow_pos_nonneg; [reflexivity|exact Hl]).
        refine (proj2 (divisor_powers a n (uval mult * 2 ^ l) La DA Hn2 _) E). clear - PL H1. nia.
Qed.

(** The random number. *)
Lemma random_base_spec n r attempts : ubig_ok n -> 2 < uval n -> is_ring r (uval n) ->
  all (random_base attempts n r) (fun o => o = Ok None \/ exists m a, o = Ok (Some m) /\ element r (uval n) m a /\ 1 <= a) /\
  forall a, 1 <= a < uval n -> (0 < attempts)%nat -> exists cs m, runs (random_base attempts n r) cs (Ok (Some m)) /\ element r (uval n) m a.
Proof.
  intros Hn H2 Hr. unfold random_base. destruct (literal_spec 1 ltac:(lia)) as (low & -> & Hlow & Elow). cbn [bind].
  destruct (ubig_clone_spec n Hn) as (high & -> & Hhigh & Ehigh). cbn [bind].
  assert (EL : ubig_lt low high = Ok true).
  { unfold ubig_lt. rewrite ubig_cmp_spec by assumption. cbn [bind]. rewrite (proj2 (Z.compare_lt_iff _ _)) by lia. reflexivity. }
  rewrite EL. cbn [bind assert]. destruct (ubig_new_spec low high Hlow Hhigh) as [S1 _]. destruct (S1 ltac:(lia)) as (s & -> & SA & q & Hq & SP).
  rewrite Elow, Ehigh in SA, SP. cbn [lift rbind].
  assert (INTO : forall u, ubig_ok u -> 1 <= uval u < uval n -> exists m, ubig_into_modulo u r = Ok m /\ element r (uval n) m (uval u)).
  { intros u Hu Lu. destruct (ubig_into_modulo_spec r (uval n) u Hr Hu) as [[(m & E & Hm) _] _].
    - apply (residue_room r (uval n)); [exact Hr|lia].
    - exists m. split; [exact E|]. rewrite Z.mod_small in Hm by lia. exact Hm. }
  split.
  - apply all_bind. apply (all_impl _ (fun o => o = Ok None \/ exists u, o = Ok (Some u) /\ ubig_ok u /\ 1 <= uval u < uval n)); [|apply runs_all; intros cs o R; exact (SA attempts cs o R)].
    intros o [-> |(u & -> & Hu & Lu)]; [left; reflexivity|]. destruct (INTO u Hu Lu) as (m & -> & Hm). cbn [lift rbind all].
    right. exists m, (uval u). split; [reflexivity|]. split; [exact Hm|lia].
  - intros a Ha Hk. specialize (SP attempts a Hk Ha).
    destruct (prob_runs (uniform_ubig_sample attempts s) (fun o => match o with Ok (Some u) => uval u =? a | _ => false end)) as (cs & o & R & E).
    { rewrite SP. apply Qlt_shift_div_l; [change 0%Q with (inject_Z 0); rewrite <- Zlt_Qlt; lia|]. rewrite Qmult_0_l.
      assert (QP : (qpow q attempts <= 1 # 2)%Q).
      { destruct attempts as [|k]; [lia|]. cbn [qpow]. assert (B1 : (0 <= qpow q k <= 1)%Q); [|nra].
        clear - Hq. induction k as [|k IH]; cbn [qpow]; [lra|]. nra. }
      lra. }
    destruct (SA attempts cs o R) as [-> |(u & -> & Hu & Lu)]; [discriminate|]. apply Z.eqb_eq in E. subst a.
    destruct (INTO u Hu Lu) as (m & Em & Hm). exists (cs ++ []), m. split; [|exact Hm].
    apply (runs_bind _ _ cs (Some u)); [exact R|]. cbn beta iota. rewrite Em. cbn [lift rbind]. constructor.
Qed.

(** ** The whole test *)

Lemma prime_loop_spec r n mult order one attempts : ubig_ok mult -> 1 <= uval mult -> 1 <= order < 2 ^ ubits ->
  ubig_ok n -> uval n = uval mult * 2 ^ order + 1 -> room_for_pow (uval n) (uval n) = true -> is_ring r (uval n) -> element r (uval n) one 1 ->
  forall rounds, all (prime_loop rounds attempts mult order n r one) (fun o => o = Ok None \/
    (o = Ok (Some true) /\ prime (uval n)) \/ (o = Ok (Some false) /\ ~ prime (uval n))).
Proof.
  intros Hm H1 Ho Hn En HR Hr H1e. pose proof (ubig_ok_val n Hn) as Vn.
  assert (PP : 2 <= 2 ^ order) by (rewrite <- (Z.pow_1_r 2) at 1; apply Z.pow_le_mono_r; lia).
  induction rounds as [|rounds IH]; cbn [prime_loop]; [left; reflexivity|].
  apply all_bind. apply (all_impl _ _ _) with (2 := proj1 (random_base_spec n r attempts Hn ltac:(nia) Hr)).
  intros o [-> |(base & a & -> & Hb & Ha)]; [left; reflexivity|].
  destruct (prime_round_spec r (uval n) mult order base a one Hm H1 Ho En ltac:(lia) HR Hb H1e Ha) as (v & -> & V1 & V2 & _). cbn [lift rbind].
  destruct v as [[|]|]; cbn [all]; [right; left; auto|right; right; auto|exact IH].
Qed.

(** Some answer of the generator ends the test in the first round. *)
Lemma prime_loop_ends r n mult order one attempts : ubig_ok mult -> 1 <= uval mult -> 1 <= order < 2 ^ ubits ->
  ubig_ok n -> uval n = uval mult * 2 ^ order + 1 -> room_for_pow (uval n) (uval n) = true -> is_ring r (uval n) -> element r (uval n) one 1 ->
  forall rounds, (0 < rounds)%nat -> (0 < attempts)%nat -> exists cs v, runs (prime_loop rounds attempts mult order n r one) cs (Ok (Some v)).
Proof.
  intros Hm H1 Ho Hn En HR Hr H1e rounds Lr La. pose proof (ubig_ok_val n Hn) as Vn.
  assert (PP : 2 <= 2 ^ order) by (rewrite <- (Z.pow_1_r 2) at 1; apply Z.pow_le_mono_r; lia).
  assert (X : exists a v, 1 <= a < uval n /\ forall base, element r (uval n) base a -> prime_round mult order one base = Ok (Some v)).
  { destruct (prime_dec (uval n)) as [P|NP].
    - destruct (primitive_root _ P) as (g & Hg & G). exists g, true. split; [exact Hg|]. intros base Hb.
      destruct (prime_round_spec r (uval n) mult order base g one Hm H1 Ho En ltac:(lia) HR Hb H1e ltac:(lia)) as (v & -> & _ & _ & V & _).
      rewrite (V G). reflexivity.
    - destruct (not_prime_divide (uval n) ltac:(nia) NP) as (d & Hd & D). exists d, false. split; [lia|]. intros base Hb.
      destruct (prime_round_spec r (uval n) mult order base d one Hm H1 Ho En ltac:(lia) HR Hb H1e ltac:(lia)) as (v & -> & _ & _ & _ & V).
      rewrite (V ltac:(lia) D). reflexivity. }
  destruct X as (a & v & Ha & X). destruct (proj2 (random_base_spec n r attempts Hn ltac:(nia) Hr) a Ha La) as (cs & m & R & Hb).
  destruct rounds as [|rounds]; [lia|]. cbn [prime_loop]. exists (cs ++ []), v. apply (runs_bind _ _ cs (Some m)); [exact R|].
  cbn beta iota. rewrite (X m Hb). cbn [lift rbind]. constructor.
Qed.

Lemma is_prime_start mult order : ubig_ok mult -> 1 <= uval mult -> 1 <= order < 2 ^ ubits -> uval mult * 2 ^ order + 1 < MAXV ->
  exists n r one, (check (1 <=? order) ;; s <- ubig_shl_r mult order ;; c <- literal 1 ;; n <- ubig_add_vv s c ;;
               r <- ring_new 0 n ;; one <- signed_into_modulo 32 1 r ;; Ok (n, r, one)) = Ok (n, r, one) /\
    ubig_ok n /\ uval n = uval mult * 2 ^ order + 1 /\ is_ring r (uval n) /\ element r (uval n) one 1.
Proof.
  intros Hm H1 Ho Hn. assert (PP : 2 <= 2 ^ order) by (rewrite <- (Z.pow_1_r 2) at 1; apply Z.pow_le_mono_r; lia).
  destruct (Z.leb_spec 1 order); [|lia]. cbn [bind assert].
  destruct (ubig_shl_r_yields mult order Hm ltac:(lia)) as [S1 _]. destruct (S1 ltac:(lia)) as (s & -> & Hs & Es). cbn [bind].
  destruct (literal_spec 1 ltac:(lia)) as (c & -> & Hc & Ec). cbn [bind].
  destruct (ubig_add_vv_yields s c Hs Hc) as [A1 _]. destruct (A1 ltac:(lia)) as (n & -> & Hn' & En). cbn [bind].
  destruct (ring_new_ring 0 n Hn' ltac:(lia)) as (r & -> & Hr & _). cbn [bind].
  destruct (signed_into_modulo_spec r (uval n) 32 1 Hr) as (one & -> & H1e); [right; right; left; reflexivity|lia|]. cbn [bind].
  exists n, r, one. split; [reflexivity|]. split; [exact Hn'|]. split; [lia|]. split; [exact Hr|]. rewrite Z.mod_small in H1e by nia. exact H1e.
Qed.

Theorem is_prime_right rounds attempts mult order cs o : ubig_ok mult -> 1 <= uval mult -> 1 <= order < 2 ^ ubits ->
  let n := uval mult * 2 ^ order + 1 in n < MAXV -> room_for_pow n n = true -> runs (is_prime rounds attempts mult order) cs o ->
  o = Ok None \/ (o = Ok (Some true) /\ prime n) \/ (o = Ok (Some false) /\ ~ prime n).
Proof.
  intros Hm H1 Ho n Hn HR. revert cs o. apply all_runs. unfold is_prime.
  destruct (is_prime_start mult order Hm H1 Ho Hn) as (u & r & one & -> & Hu & Eu & Hr & H1e). cbn [lift rbind].
  unfold n in *. rewrite <- Eu in *. apply prime_loop_spec; assumption.
Qed.

Theorem is_prime_ends rounds attempts mult order : ubig_ok mult -> 1 <= uval mult -> 1 <= order < 2 ^ ubits ->
  let n := uval mult * 2 ^ order + 1 in n < MAXV -> room_for_pow n n = true -> (0 < rounds)%nat -> (0 < attempts)%nat ->
  exists cs v, runs (is_prime rounds attempts mult order) cs (Ok (Some v)).
Proof.
  intros Hm H1 Ho n Hn HR Lr La. unfold is_prime.
  destruct (is_prime_start mult order Hm H1 Ho Hn) as (u & r & one & -> & Hu & Eu & Hr & H1e). cbn [lift rbind].
  unfold n in *. rewrite <- Eu in *. apply prime_loop_ends; assumption.
Qed.
End PrimeTool.
