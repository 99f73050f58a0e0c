(** The constants of the number-theoretic transform are what the search for primes finds. *)
From Coq Require Import ZArith Znumtheory Zpow_facts List Sorted Lia.
From Verif Require Import Model.Base Model.Words Model.Buffer Model.Ntt
  Spec.Order Spec.PrimeSearch
  Proofs.Basics Proofs.BufferProofs Proofs.OrderProofs Proofs.PrimitiveRoots Proofs.PrimeTest Proofs.RootSearchProofs Proofs.NttProofs Proofs.PrimeSearchProofs.
Open Scope Z_scope.

Lemma sorted_unique (l m : list Z) : StronglySorted Z.lt l -> StronglySorted Z.lt m -> (forall x, In x l <-> In x m) -> l = m.
Proof.
  intros Sl. revert m. induction Sl as [|x l Sl IH Fl]; intros m Sm E.
  - destruct m as [|y m]; [reflexivity|]. elim (proj2 (E y) (or_introl eq_refl)).
  - rewrite Forall_forall in Fl. destruct Sm as [|y m Sm Fm]; [elim (proj1 (E x) (or_introl eq_refl))|]. rewrite Forall_forall in Fm.
    assert (x = y).
    { destruct (proj1 (E x) (or_introl eq_refl)) as [C|Hx]; [congruence|]. destruct (proj2 (E y) (or_introl eq_refl)) as [C|Hy]; [congruence|].
      specialize (Fl y Hy). specialize (Fm x Hx). lia. }
    subst y. f_equal. apply IH; [exact Sm|]. intros z. split; intros Hz.
    + destruct (proj1 (E z) (or_intror Hz)) as [C|C]; [|exact C]. subst z. specialize (Fl x Hz). lia.
    + destruct (proj2 (E z) (or_intror Hz)) as [C|C]; [|exact C]. subst z. specialize (Fm x Hz). lia.
Qed.

Lemma sorted_nodup (l : list Z) : StronglySorted Z.lt l -> NoDup l.
Proof.
  induction 1 as [|x l Sl IH F]; constructor; [|exact IH]. intros C. rewrite Forall_forall in F. specialize (F x C). lia.
Qed.

(** ** What is computed *)

(** Powers modulo p = m * 2^o + 1.  As m * 2^o is -1, the number is multiplied by m^2 on
    the way, and divisions are not needed. *)
Definition fast_square (o m z : Z) : Z :=
  let s := z * z in
  m * m * Z.land s (Z.ones o) - m * Z.land (Z.shiftr s o) (Z.ones o) + Z.shiftr s (2 * o).
Fixpoint fast_squares (n : nat) (o m z : Z) : Z := match n with O => z | S n => fast_squares n o m (fast_square o m z) end.
Definition fast_power (n : nat) (o m x : Z) : Z :=
  let p := m * 2 ^ o + 1 in m * m * fast_squares n o m (x * 2 ^ (2 * o) mod p) mod p.

Lemma fast_square_spec o m z : 0 <= o -> let p := m * 2 ^ o + 1 in exists t, fast_square o m z = m * m * (z * z) + t * p.
Proof.
  intros Ho p. unfold fast_square. set (s := z * z). rewrite !Z.land_ones, !Z.shiftr_div_pow2 by lia.
  assert (P : 0 < 2 ^ o) by (apply Z.pow_pos_nonneg; lia). replace (2 ^ (2 * o)) with (2 ^ o * 2 ^ o) by (rewrite <- Z.pow_add_r by lia; f_equal; lia).
  rewrite <- Z.div_div by lia. pose proof (Z.div_mod s (2 ^ o) ltac:(lia)) as E. pose proof (Z.div_mod (s / 2 ^ o) (2 ^ o) ltac:(lia)) as F.
  set (t0 := s mod 2 ^ o) in *. set (t := s / 2 ^ o) in *. set (t1 := t mod 2 ^ o) in *. set (t2 := t / 2 ^ o) in *. clearbody t0 t t1 t2 s.
  unfold p. set (q := 2 ^ o) in *. clearbody q. exists (- m * t1 + t2 - m * q * t2). rewrite E, F. ring.
Qed.

Lemma fast_squares_spec n o m : 0 <= o -> 0 < m -> let p := m * 2 ^ o + 1 in forall z x, (m * m * z) mod p = x mod p ->
  (m * m * fast_squares n o m z) mod p = x ^ 2 ^ Z.of_nat n mod p.
Proof.
  intros Ho Hm p. assert (Hp : 0 < p) by (unfold p; assert (0 < 2 ^ o) by (apply Z.pow_pos_nonneg; lia); nia).
  induction n as [|n IH]; intros z x E; cbn [fast_squares].
  - cbn [Z.of_nat]. rewrite Z.pow_0_r, Z.pow_1_r. exact E.
  - rewrite (IH (fast_square o m z) (x ^ 2)).
    + rewrite <- Z.pow_mul_r by (try apply Z.pow_nonneg; lia). f_equal. f_equal. rewrite Nat2Z.inj_succ, Z.pow_succ_r by lia. reflexivity.
    + destruct (fast_square_spec o m z Ho) as [t ->]. fold p. replace (m * m * (m * m * (z * z) + t * p)) with ((m * m * z) * (m * m * z) + (m * m * t) * p) by ring.
      rewrite Z_mod_plus_full, Zmult_mod, E, <- Zmult_mod. f_equal. ring.
Qed.

Lemma fast_power_spec n o m x : 0 <= o -> 0 < m -> fast_power n o m x = x ^ 2 ^ Z.of_nat n mod (m * 2 ^ o + 1).
Proof.
  intros Ho Hm. unfold fast_power. set (p := m * 2 ^ o + 1). apply fast_squares_spec; [exact Ho|exact Hm|]. fold p.
  rewrite Zmult_mod_idemp_r. replace (2 ^ (2 * o)) with (2 ^ o * 2 ^ o) by (rewrite <- Z.pow_add_r by lia; f_equal; lia).
  replace (m * m * (x * (2 ^ o * 2 ^ o))) with (x + (x * (m * 2 ^ o - 1)) * p) by (unfold p; ring). apply Z_mod_plus_full.
Qed.

(** The powers of h, h-1, ..., 1 with exponent 2^n: for a multiple of a small prime from
    those of the factors. *)
Definition small_primes : list Z := [2; 3; 5; 7; 11; 13; 17; 19].
Definition next_power (n : nat) (o m : Z) (h : nat) (l : list Z) : Z :=
  let z := Z.of_nat h in
  match find (fun d => (d <? z) && (z mod d =? 0)) small_primes with
  | Some d => nth (h - 1 - Z.to_nat d) l 0 * nth (h - 1 - Z.to_nat (z / d)) l 0 mod (m * 2 ^ o + 1)
  | None => fast_power n o m z
  end.
Fixpoint small_powers (n : nat) (o m : Z) (h : nat) : list Z :=
  match h with O => [] | S k => let l := small_powers n o m k in next_power n o m h l :: l end.

Lemma small_primes_ge d : In d small_primes -> 2 <= d.
Proof. intros H. repeat (destruct H as [<- |H]; [discriminate|]). elim H. Qed.

Lemma factor_bounds z d e : 2 <= d -> d < z -> z = d * e -> 1 <= e < z.
Proof. intros. nia. Qed.

Lemma number_pos o m : 0 <= o -> 0 < m -> 0 < m * 2 ^ o + 1.
Proof. intros. assert (Q : 0 < 2 ^ o) by (apply Z.pow_pos_nonneg; lia). nia. Qed.

Lemma small_powers_spec n o m : 0 <= o -> 0 < m -> forall h,
  length (small_powers n o m h) = h /\ forall k, (1 <= k <= h)%nat -> nth (h - k) (small_powers n o m h) 0 = Z.of_nat k ^ 2 ^ Z.of_nat n mod (m * 2 ^ o + 1).
Proof.
  intros Ho Hm. pose proof (number_pos o m Ho Hm) as Hp.
  induction h as [|h [IL IH]]; cbn [small_powers]; [split; [reflexivity|intros k Hk; clear - Hk; lia]|]. split; [cbn [length]; rewrite IL; reflexivity|].
  intros k Hk. destruct (Nat.eq_dec k (S h)) as [-> |N].
  - rewrite Nat.sub_diag. cbn [nth]. unfold next_power. destruct (find _ small_primes) as [d|] eqn:F; [|apply fast_power_spec; assumption].
    apply find_some in F as [F1 F2]. apply andb_prop in F2 as [F2 F3]. apply Z.ltb_lt in F2. apply Z.eqb_eq in F3.
    pose proof (small_primes_ge d F1) as Hd. set (z := Z.of_nat (S h)) in *.
    assert (Nd : d <> 0) by (clear - Hd; lia). pose proof (Z.div_mod z d Nd) as E. rewrite F3, Z.add_0_r in E. set (e := z / d) in *. clearbody e. pose proof (factor_bounds z d e Hd F2 E) as He.
    replace (S h - 1)%nat with h by (clear; lia). unfold z in He, F2. rewrite !IH by (clear - He Hd F2; lia). fold z. rewrite !Z2Nat.id by (clear - He Hd; lia). rewrite <- Zmult_mod, <- Z.pow_mul_l, <- E. reflexivity.
  - replace (S h - k)%nat with (S (h - k)) by (clear - Hk N; lia). cbn [nth]. apply IH. clear - Hk N. lia.
Qed.

(** [table] gives for a factor [m] a number whose power 2^(order-1) is -1 modulo
    m*2^order+1; for all other factors a divisor or a power of three shows that the number is
    composite. *)
Definition factor_check (order : nat) (table : list (Z * Z)) (m : Z) : bool :=
  match find (fun e => fst e =? m) table with
  | Some e => fast_power (order - 1) (Z.of_nat order) m (snd e) =? m * 2 ^ Z.of_nat order
  | None => existsb (fun d => (d <? m * 2 ^ Z.of_nat order) && ((m * 2 ^ Z.of_nat order + 1) mod d =? 0)) small_primes ||
            negb (fast_power order (Z.of_nat order) m (3 ^ m) =? 1)
  end.
Definition table_check (bits order : nat) (table : list (Z * Z)) : bool :=
  forallb (fun m => factor_check order table (Z.of_nat m)) (seq 1 (Nat.pow 2 (bits - order) - 1)) &&
  forallb (fun e => (1 <=? fst e) && (fst e <? 2 ^ (Z.of_nat bits - Z.of_nat order))) table.

(** No number below the root has the order. *)
Definition root_check (order : nat) (e : Z * Z) : bool :=
  let m := fst e in
  (1 <=? m) && (1 <=? snd e) && (snd e <? m * 2 ^ Z.of_nat order + 1) && (fast_power (order - 1) (Z.of_nat order) m (snd e) =? m * 2 ^ Z.of_nat order) &&
  forallb (fun c => negb (c =? m * 2 ^ Z.of_nat order)) (small_powers (order - 1) (Z.of_nat order) m (Z.to_nat (snd e) - 1)).

Definition number (order : nat) (e : Z * Z) : Z := fst e * 2 ^ Z.of_nat order + 1.

Lemma table_suitable bits order table : (2 <= order < bits)%nat -> (bits <= 2 * order)%nat -> table_check bits order table = true ->
  forall p, suitable (Z.of_nat bits) (Z.of_nat order) p <-> In p (map (number order) table).
Proof.
  intros Ho Hb C p. apply andb_prop in C as [C D]. rewrite forallb_forall in C, D.
  set (b := Z.of_nat bits) in *. set (o := Z.of_nat order) in *. assert (Hob : 2 <= o < b) by (unfold o, b; lia).
  assert (EB : 2 ^ b = 2 ^ (b - o) * 2 ^ o) by (rewrite <- Z.pow_add_r by lia; f_equal; lia).
  assert (G2 : 2 ^ 2 <= 2 ^ o) by (apply Z.pow_le_mono_r; lia). change (2 ^ 2) with 4 in G2.
  assert (LB : 2 ^ b <= 2 ^ o * 2 ^ o) by (rewrite <- Z.pow_add_r by lia; apply Z.pow_le_mono_r; unfold b, o; lia).
  assert (EO : Z.of_nat (order - 1) = o - 1) by (unfold o; lia).
  assert (EN : Z.of_nat (Nat.pow 2 (bits - order)) = 2 ^ (b - o)). { rewrite Nat2Z.inj_pow. f_equal. unfold b, o. lia. }
  assert (K : forall m, 1 <= m < 2 ^ (b - o) -> factor_check order table m = true).
  { intros m Hm. specialize (C (Z.to_nat m)). rewrite Z2Nat.id in C by (clear - Hm; lia). apply C. apply in_seq.
    set (N := Nat.pow 2 (bits - order)) in *. clear - Hm EN. lia. }
  assert (PR : forall e, In e table -> prime (number order e) /\ 1 <= fst e < 2 ^ (b - o)).
  { intros e He. specialize (D e He). assert (Hm : 1 <= fst e < 2 ^ (b - o)) by (clear - D; lia). specialize (K (fst e) Hm). unfold factor_check in K.
    destruct (find (fun e' => fst e' =? fst e) table) as [e'|] eqn:F.
    - split; [|exact Hm]. apply find_some in F as [_ F]. apply Z.eqb_eq in F. apply Z.eqb_eq in K. fold o in K. unfold number. fold o. set (q := fst e * 2 ^ o + 1) in *.
      assert (Hq : 4 < q < 2 ^ b) by (unfold q; clear - Hm EB G2; nia). rewrite fast_power_spec, EO in K by (clear - Hm Hob; lia). fold q in K.
      apply (prime_by_order q (snd e') o).
      + clear - Hq; lia.
      + unfold q. destruct (two_pow_step o ltac:(clear - Hob; lia)) as [-> _]. replace (fst e * (2 * 2 ^ (o - 1)) + 1) with (1 + (fst e * 2 ^ (o - 1)) * 2) by ring.
        rewrite Z_mod_plus_full. reflexivity.
      + clear - Hob; lia.
      + rewrite K. apply Z.mod_unique with (-1); unfold q in *; clear - Hq; lia.
      + clear - Hq LB; lia.
    - pose proof (find_none _ _ F e He) as X. cbv beta in X. rewrite Z.eqb_refl in X. discriminate. }
  split.
  - intros (P & [m Em] & L). pose proof (prime_ge_2 p P) as G. assert (Hm : 1 <= m < 2 ^ (b - o)) by (clear - Em G L EB G2; nia).
    assert (E : p = m * 2 ^ o + 1) by (clear - Em; lia). specialize (K m Hm). unfold factor_check in K. fold o in K.
    destruct (find (fun e => fst e =? m) table) as [e|] eqn:F.
    + apply find_some in F as [F1 F2]. apply Z.eqb_eq in F2. apply in_map_iff. exists e. split; [|exact F1]. unfold number. fold o. rewrite F2, E. reflexivity.
    + exfalso. apply Bool.orb_prop in K as [K|K].
      { apply existsb_exists in K as (d & D1 & D2). apply small_primes_ge in D1. apply andb_prop in D2 as [D2 D3]. apply Z.ltb_lt in D2. apply Z.eqb_eq in D3.
        rewrite <- E in D3. assert (Nd : d <> 0) by (clear - D1; lia). apply (Zmod_divide _ _ Nd) in D3.
        destruct (prime_divisors p P d D3) as [C0|[C0|[C0|C0]]]; clear - C0 D1 D2 E; lia. }
      rewrite fast_power_spec, <- E in K by (clear - Hm Hob; lia). fold o in K.
      rewrite <- Z.pow_mul_r in K by (try apply Z.pow_nonneg; clear - Hm; lia). replace (m * 2 ^ o) with (p - 1) in K by (clear - E; lia).
      rewrite (fermat p 3 P) in K by (clear - E Hm G2; nia). discriminate.
  - intros Hp. apply in_map_iff in Hp as (e & <- & He). destruct (PR e He) as [P Hm].
    split; [exact P|]. unfold number. fold o. split; [exists (fst e); ring|clear - Hm EB G2; nia].
Qed.

Lemma least_root_checked order e : (1 <= order)%nat -> prime (number order e) -> 2 < number order e -> root_check order e = true ->
  least_root (Z.of_nat order) (number order e) (snd e).
Proof.
  intros Ho P G C. unfold root_check in C. replace (fst e * 2 ^ Z.of_nat order) with (number order e - 1) in C by (unfold number; lia).
  replace (number order e - 1 + 1) with (number order e) in C by lia.
  apply andb_prop in C as [C D]. apply andb_prop in C as [C C2]. apply andb_prop in C as [C C1]. apply andb_prop in C as [Cm C0].
  apply Z.leb_le in Cm, C0. apply Z.ltb_lt in C1. apply Z.eqb_eq in C2.
  rewrite forallb_forall in D. assert (EO : Z.of_nat (order - 1) = Z.of_nat order - 1) by lia.
  rewrite fast_power_spec, EO in C2 by (clear - Cm; lia). fold (number order e) in C2.
  split; [clear - C0 C1; lia|]. split; [apply order_by_half; try assumption; lia|].
  intros h Hh OH. destruct (Z.le_gt_cases (snd e) h) as [L|L]; [exact L|]. exfalso.
  destruct (small_powers_spec (order - 1) (Z.of_nat order) (fst e) ltac:(clear; lia) ltac:(clear - Cm; lia) (Z.to_nat (snd e) - 1)) as [LL NT].
  specialize (NT (Z.to_nat h) ltac:(clear - Hh L; lia)). rewrite Z2Nat.id, EO in NT by (clear - Hh; lia). fold (number order e) in NT.
  apply order_by_half in OH; [|assumption|assumption|lia]. rewrite OH in NT.
  specialize (D (number order e - 1)). rewrite Z.eqb_refl in D. discriminate D. rewrite <- NT. apply nth_In. rewrite LL. clear - Hh L. lia.
Qed.

Lemma least_root_unique order p g h : least_root order p g -> least_root order p h -> g = h.
Proof. intros (G1 & G2 & G3) (H1 & H2 & H3). specialize (G3 h (proj1 H1) H2). specialize (H3 g (proj1 G1) G2). lia. Qed.

(** [few]: the numbers of the table that are suitable for the next order. *)
Lemma search_by_table bits order table first last o primes roots : (2 <= order < bits)%nat -> (bits <= 2 * order)%nat ->
  table = first ++ last -> table_check bits order table = true -> forallb (root_check order) last = true ->
  StronglySorted Z.lt (map (number order) table) -> (length last = 3)%nat ->
  (length (filter (fun e => Z.even (fst e)) table) < 3)%nat ->
  search_result (Z.of_nat bits) o primes roots ->
  o = Z.of_nat order /\ primes = map (number order) table /\
  skipn (length primes - 3) (combine primes roots) = map (fun e => (number order e, snd e)) last.
Proof.
  intros Ho Hb ET TC RC SS LL FE (Hoo & L3 & MX & SP & IN & FR). pose proof (table_suitable bits order table Ho Hb TC) as SU.
  assert (LT : (3 <= length table)%nat) by (rewrite ET, app_length, LL; lia).
  assert (EO : o = Z.of_nat order).
  { destruct (Z.lt_trichotomy o (Z.of_nat order)) as [L|[E|L]]; [|exact E|].
    - exfalso. assert (K : (length (map (number order) table) < 3)%nat); [|rewrite map_length in K; lia]. apply MX; [apply sorted_nodup; exact SS|].
      apply Forall_forall. intros p Hp. apply SU in Hp. apply (suitable_less _ _ (Z.of_nat order)); [lia|exact Hp].
    - exfalso. assert (K : (length primes <= length (map (number order) (filter (fun e => Z.even (fst e)) table)))%nat); [|rewrite map_length in K; lia].
      apply NoDup_incl_length; [apply sorted_nodup; exact SP|]. intros p Hp. apply IN in Hp. apply (suitable_less _ (Z.of_nat order + 1)) in Hp; [|lia].
      pose proof (proj1 (SU p) (suitable_less _ (Z.of_nat order) (Z.of_nat order + 1) p ltac:(lia) Hp)) as Hp'. apply in_map_iff in Hp' as (e & E & He).
      apply in_map_iff. exists e. split; [exact E|]. apply filter_In. split; [exact He|]. destruct Hp as (_ & [t Et] & _). rewrite <- E in Et. unfold number in Et.
      rewrite Z.pow_add_r in Et by lia. change (2 ^ 1) with 2 in Et. assert (0 < 2 ^ Z.of_nat order) by (apply Z.pow_pos_nonneg; lia).
      assert (Ee : fst e = 2 * t) by (clear - Et H; nia). rewrite Ee, Z.even_mul. reflexivity. }
  subst o. assert (EP : primes = map (number order) table).
  { apply sorted_unique; [exact SP|exact SS|]. intros p. rewrite IN. apply SU. }
  split; [reflexivity|]. split; [exact EP|].
  rewrite EP in *. rewrite ET, map_app in FR |- *. apply Forall2_app_inv_l in FR as (r1 & r2 & F1 & F2 & ->).
  assert (E1 : length (map (number order) first) = length r1) by (clear - F1; induction F1; cbn [length]; congruence). rewrite map_length in E1.
  assert (EC : combine (map (number order) first ++ map (number order) last) (r1 ++ r2) = combine (map (number order) first) r1 ++ combine (map (number order) last) r2).
  { clear - F1. revert r1 F1. induction (map (number order) first) as [|x f IH]; intros r1 F1; inversion F1; subst; cbn [app combine]; [reflexivity|]. f_equal. apply IH. assumption. }
  rewrite EC, app_length, !map_length, LL. replace (length first + 3 - 3)%nat with (length (combine (map (number order) first) r1)).
  2: { rewrite combine_length, map_length, <- E1. lia. }
  rewrite skipn_app, skipn_all, Nat.sub_diag. cbn [app skipn].
  assert (SL : forall e, In e last -> prime (number order e) /\ 2 < number order e).
  { intros e He. assert (S0 : suitable (Z.of_nat bits) (Z.of_nat order) (number order e)). { apply SU. rewrite ET. apply in_map, in_or_app. right. exact He. }
    destruct S0 as (P & D & _). split; [exact P|]. pose proof (prime_ge_2 _ P) as G. apply Z.divide_pos_le in D; [|lia].
    assert (2 ^ 2 <= 2 ^ Z.of_nat order) by (apply Z.pow_le_mono_r; lia). change (2 ^ 2) with 4 in H. lia. }
  clear - F2 RC SL Ho. revert r2 F2. induction last as [|e last IH]; intros r2 F2; inversion F2 as [|? g ? r3 R F3]; subst; cbn [map combine]; [reflexivity|].
  cbn [forallb] in RC. apply andb_prop in RC as [RC1 RC2]. f_equal.
  - f_equal. apply (least_root_unique (Z.of_nat order) (number order e)); [exact R|]. destruct (SL e (or_introl eq_refl)). apply least_root_checked; try assumption. lia.
  - apply IH; [exact RC2|intros; apply SL; right; assumption|exact F3].
Qed.

(** ** The tables *)

Definition first16 : list (Z * Z) := [].
Definition last16 : list (Z * Z) := [(3, 0x29); (0xa, 0x1c); (0xf, 0x13)].
Definition first32 : list (Z * Z) := [(0xf, 0x89); (0x11, 0xa)].
Definition last32 : list (Z * Z) := [(0x18, 0x3); (0x1a, 0x79); (0x1d, 0x23)].
Definition first64 : list (Z * Z) := [(0x1d, 0x15); (0x47, 0x11f); (0x4b, 0x95)].
Definition last64 : list (Z * Z) := [(0x5f, 0x37); (0x6c, 0x40); (0x7b, 0x1ed)].

Lemma check16 : table_check 16 12 (first16 ++ last16) && forallb (root_check 12) last16 = true.
Proof. vm_compute. reflexivity. Qed.
Lemma check32 : table_check 32 27 (first32 ++ last32) && forallb (root_check 27) last32 = true.
Proof. vm_compute. reflexivity. Qed.
Lemma check64 : table_check 64 57 (first64 ++ last64) && forallb (root_check 57) last64 = true.
Proof. vm_compute. reflexivity. Qed.

Section Constants.
Context {A : Arch} {AOK : ArchOk A}.

Theorem ntt_constants order primes roots : search_result wbits order primes roots ->
  order = NTT_MAX_ORDER /\
  skipn (length primes - 3) (combine primes roots) = map (fun p => (p_prime p, p_max_order_root p)) PRIMES /\
  enough wbits order primes = true.
Proof.
  unfold PRIMES, NTT_MAX_ORDER.
  assert (SD : forall l, (fix go l := match l with x :: (y :: _) as t => (x <? y) && go t | _ => true end) l = true -> StronglySorted Z.lt l).
  { intros l H. apply Sorted_StronglySorted; [intros x y z; apply Z.lt_trans|]. induction l as [|x l IH]; constructor.
    - apply IH. destruct l; [reflexivity|]. apply andb_prop in H. apply H.
    - destruct l as [|y l]; constructor. apply andb_prop in H as [H _]. apply Z.ltb_lt. exact H. }
  destruct wbits_cases as [E|[E|E]]; rewrite E; cbn [Z.eqb Pos.eqb]; intros S0.
  - pose proof check16 as C. apply andb_prop in C as [C1 C2].
    assert (C3 : StronglySorted Z.lt (map (number 12) (first16 ++ last16))) by (apply SD; vm_compute; reflexivity).
    assert (C4 : (length (filter (fun e => Z.even (fst e)) (first16 ++ last16)) < 3)%nat) by (apply Nat.ltb_lt; vm_compute; reflexivity).
    assert (C5 : (2 <= 12 < 16)%nat) by (clear; lia). assert (C6 : (16 <= 2 * 12)%nat) by (clear; lia).
    destruct (search_by_table 16 12 (first16 ++ last16) first16 last16 order primes roots C5 C6 eq_refl C1 C2 C3 eq_refl C4 S0) as (-> & -> & ->).
    split; [reflexivity|]. split; vm_compute; reflexivity.
  - pose proof check32 as C. apply andb_prop in C as [C1 C2].
    assert (C3 : StronglySorted Z.lt (map (number 27) (first32 ++ last32))) by (apply SD; vm_compute; reflexivity).
    assert (C4 : (length (filter (fun e => Z.even (fst e)) (first32 ++ last32)) < 3)%nat) by (apply Nat.ltb_lt; vm_compute; reflexivity).
    assert (C5 : (2 <= 27 < 32)%nat) by (clear; lia). assert (C6 : (32 <= 2 * 27)%nat) by (clear; lia).
    destruct (search_by_table 32 27 (first32 ++ last32) first32 last32 order primes roots C5 C6 eq_refl C1 C2 C3 eq_refl C4 S0) as (-> & -> & ->).
    split; [reflexivity|]. split; vm_compute; reflexivity.
  - pose proof check64 as C. apply andb_prop in C as [C1 C2].
    assert (C3 : StronglySorted Z.lt (map (number 57) (first64 ++ last64))) by (apply SD; vm_compute; reflexivity).
    assert (C4 : (length (filter (fun e => Z.even (fst e)) (first64 ++ last64)) < 3)%nat) by (apply Nat.ltb_lt; vm_compute; reflexivity).
    assert (C5 : (2 <= 57 < 64)%nat) by (clear; lia). assert (C6 : (64 <= 2 * 57)%nat) by (clear; lia).
    destruct (search_by_table 64 57 (first64 ++ last64) first64 last64 order primes roots C5 C6 eq_refl C1 C2 C3 eq_refl C4 S0) as (-> & -> & ->).
    split; [reflexivity|]. split; vm_compute; reflexivity.
Qed.
End Constants.
