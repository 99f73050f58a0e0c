(** Conversion to floating point rounds to nearest, ties to even. *)
From Verif Require Import Model.Base Model.Words Model.Buffer Model.UBig Model.IBig Model.Convert Model.ShiftOps Model.Bits Model.Float
  Spec.Val Spec.Num Spec.Prim Spec.Float Proofs.Basics Proofs.BufferProofs Proofs.ConvertProofs Proofs.ShiftOpsProofs
  Proofs.BitCountProofs Proofs.Bounds Proofs.ApiProofs.
From Coq Require Import Lia.

(** ** Decoding *)

Section Decode.
Variables p emax : Z.
Hypothesis Hp : 2 <= p.
Hypothesis He : p < emax.

Let P := 2 ^ (p - 1).
Lemma P_pos : 2 <= P.
Proof. unfold P. change 2 with (2 ^ 1) at 1. apply Z.pow_le_mono_r; lia. Qed.
Lemma P_double : 2 ^ p = 2 * P.
Proof. unfold P. rewrite <- Z.pow_succ_r by lia. f_equal. lia. Qed.

Lemma decode_fields s ex frac : 0 <= frac < P -> 0 <= ex < 2 * emax -> 0 <= s ->
  decode p emax (s * (P * (2 * emax)) + ex * P + frac) =
  if ex =? 2 * emax - 1 then (if frac =? 0 then Infinite (0 <? s) else NotANumber)
  else if ex =? 0 then Finite (0 <? s) frac (3 - emax - p)
  else Finite (0 <? s) (P + frac) (ex + 2 - emax - p).
Proof.
  intros Hf Hx Hs. pose proof P_pos. unfold decode. fold P.
  assert (D : (s * (P * (2 * emax)) + ex * P + frac) / P = s * (2 * emax) + ex).
  { symmetry. apply Z.div_unique with frac; [lia|ring]. }
  assert (M : (s * (P * (2 * emax)) + ex * P + frac) mod P = frac).
  { symmetry. apply Z.mod_unique with (s * (2 * emax) + ex); [lia|ring]. }
  rewrite D, M.
  assert ((s * (2 * emax) + ex) mod (2 * emax) = ex) as -> by (symmetry; apply Z.mod_unique with s; lia).
  assert ((s * (2 * emax) + ex) / (2 * emax) = s) as -> by (symmetry; apply Z.div_unique with ex; lia).
  reflexivity.
Qed.

(** A normal number: exponent [e] and significand [m], which may have been rounded
    up to the next power of two. *)
Lemma decode_normal s e m : 0 <= e < emax -> P <= m <= 2 * P -> s = 0 \/ s = 1 ->
  let bits := s * (P * (2 * emax)) + ((e + emax - 2) * P + m) in
  let t := e - (p - 1) in
  if (e =? emax - 1) && (m =? 2 * P) then decode p emax bits = Infinite (0 <? s)
  else forall v, (if 0 <=? t then v = m * 2 ^ t else v * 2 ^ (- t) = m) -> is_finite p emax bits (0 <? s) v.
Proof.
  intros E M S. pose proof P_pos. cbv zeta. destruct (Z.eqb_spec m (2 * P)) as [->|N].
  - assert (Eq : s * (P * (2 * emax)) + ((e + emax - 2) * P + 2 * P) = s * (P * (2 * emax)) + (e + emax) * P + 0) by ring.
    rewrite Eq. destruct (Z.eqb_spec e (emax - 1)) as [->|Ne]; cbn [andb].
    + rewrite decode_fields by lia. rewrite (proj2 (Z.eqb_eq _ _)) by lia. reflexivity.
    + intros v Hv. unfold is_finite. rewrite decode_fields by lia.
      rewrite (proj2 (Z.eqb_neq (e + emax) (2 * emax - 1))) by lia. rewrite (proj2 (Z.eqb_neq (e + emax) 0)) by lia.
      split; [reflexivity|]. rewrite Z.add_0_r. replace (e + emax + 2 - emax - p) with (e - (p - 1) + 1) by ring.
      set (t := e - (p - 1)) in *. destruct (Z.leb_spec 0 t).
      * rewrite (proj2 (Z.leb_le 0 (t + 1))) by lia. rewrite Hv, Z.pow_add_r by lia. ring.
      * destruct (Z.leb_spec 0 (t + 1)).
        -- assert (t = -1) by lia. replace (- t) with 1 in Hv by lia. replace (t + 1) with 0 by lia.
           change (2 ^ 1) with 2 in Hv. change (2 ^ 0) with 1. lia.
        -- replace (- t) with (- (t + 1) + 1) in Hv by lia. rewrite Z.pow_add_r in Hv by lia. change (2 ^ 1) with 2 in Hv. lia.
  - rewrite andb_false_r. intros v Hv.
    assert (Eq : s * (P * (2 * emax)) + ((e + emax - 2) * P + m) = s * (P * (2 * emax)) + (e + emax - 1) * P + (m - P)) by ring.
    rewrite Eq. unfold is_finite. rewrite decode_fields by lia.
    rewrite (proj2 (Z.eqb_neq (e + emax - 1) (2 * emax - 1))) by lia. rewrite (proj2 (Z.eqb_neq (e + emax - 1) 0)) by lia.
    split; [reflexivity|]. replace (P + (m - P)) with m by ring. replace (e + emax - 1 + 2 - emax - p) with (e - (p - 1)) by ring. auto.
Qed.

(** ** Rounding *)

(** Precise numbers around [n = q * 2^s + r] with [q] of exactly [p] bits. *)
Lemma precise_around q s r w : 0 <= s -> P <= q < 2 * P -> 0 <= r < 2 ^ s -> precise p w ->
  w <= q * 2 ^ s \/ (q + 1) * 2 ^ s <= w.
Proof.
  intros Hs Hq Hr (m & t & Ht & Hm & ->). rewrite P_double in Hm. pose proof P_pos.
  assert (P2 : 0 < 2 ^ s) by (apply Z.pow_pos_nonneg; lia).
  destruct (Z.le_gt_cases s t) as [C|C].
  - replace t with (t - s + s) by ring. rewrite Z.pow_add_r, Z.mul_assoc by lia. set (k := m * 2 ^ (t - s)).
    destruct (Z.le_gt_cases k q); [left|right]; apply Z.mul_le_mono_nonneg_r; lia.
  - left. replace s with (s - t + t) by ring. rewrite Z.pow_add_r, Z.mul_assoc by lia.
    apply Z.mul_le_mono_nonneg_r; [apply Z.pow_nonneg; lia|].
    assert (2 <= 2 ^ (s - t)) by (change 2 with (2 ^ 1) at 1; apply Z.pow_le_mono_r; lia). nia.
Qed.

Lemma round_nearest q s r : 0 < s -> P <= q < 2 * P -> 0 <= r < 2 ^ s ->
  nearest_even p (q * 2 ^ s + r)
    ((if (2 ^ s <? 2 * r) || ((2 * r =? 2 ^ s) && Z.odd q) then q + 1 else q) * 2 ^ s).
Proof.
  intros Hs Hq Hr. pose proof P_pos as PP. pose proof P_double as PD.
  assert (P2 : 0 < 2 ^ s) by (apply Z.pow_pos_nonneg; lia).
  set (up := (2 ^ s <? 2 * r) || ((2 * r =? 2 ^ s) && Z.odd q)).
  assert (U : if up then 2 ^ s <= 2 * r else 2 * r <= 2 ^ s) by (unfold up; destruct (Z.ltb_spec (2 ^ s) (2 * r)), (Z.eqb_spec (2 * r) (2 ^ s)), (Z.odd q); cbn [orb andb]; lia).
  assert (T : 2 * r = 2 ^ s -> up = Z.odd q).
  { unfold up. intros E. rewrite (proj2 (Z.ltb_ge _ _)) by lia. rewrite (proj2 (Z.eqb_eq _ _)) by lia. reflexivity. }
  clearbody up.
  assert (Pr : forall m, P <= m <= 2 * P -> precise p (m * 2 ^ s)).
  { intros m Hm. destruct (Z.eq_dec m (2 * P)) as [->|N].
    - exists P, (s + 1). rewrite PD. split; [lia|]. split; [lia|]. rewrite Z.pow_add_r by lia. change (2 ^ 1) with 2. ring.
    - exists m, s. rewrite PD. lia. }
  set (N := q * 2 ^ s + r). set (v := (if up then q + 1 else q) * 2 ^ s).
  assert (D : Z.abs (N - v) = if up then 2 ^ s - r else r) by (unfold N, v; destruct up; lia).
  unfold nearest_even. rewrite D. split; [|split; [|split]].
  - unfold v. apply Pr. destruct up; lia.
  - intros w Hw. destruct (precise_around q s r w ltac:(lia) Hq Hr Hw); unfold N; destruct up; lia.
  - intros m k Hk Hm. assert (1 <= 2 ^ k) by (apply Z.pow_le_mono_r with (a := 2) (b := 0); lia).
    assert (2 <= 2 ^ s) by (change 2 with (2 ^ 1) at 1; apply Z.pow_le_mono_r; lia).
    assert (m <= q * 2 ^ s) by nia. assert (m <= q * 2 ^ s * 2 ^ k) by nia.
    assert ((if up then 2 ^ s - r else r) <= r) by (destruct up; lia).
    assert (r * 2 ^ k <= Z.abs (N * 2 ^ k - m)); [|nia].
    unfold N. rewrite Z.mul_add_distr_r. lia.
  - intros w Hw Nw Ew.
    assert (E : 2 * r = 2 ^ s).
    { destruct (precise_around q s r w ltac:(lia) Hq Hr Hw); unfold N, v in *; destruct up; lia. }
    specialize (T E). unfold v. destruct up.
    + destruct (Z.eq_dec (q + 1) (2 * P)) as [->|Nq].
      * exists P, (s + 1). split; [lia|]. split; [rewrite PD; unfold P in *; lia|]. split.
        -- rewrite Z.pow_add_r by lia. change (2 ^ 1) with 2. ring.
        -- unfold P. replace (p - 1) with (Z.succ (p - 2)) by lia. rewrite Z.pow_succ_r, Z.even_mul by lia. reflexivity.
      * exists (q + 1), s. rewrite PD. unfold P in *. split; [lia|]. split; [lia|]. split; [reflexivity|].
        rewrite <- Z.negb_odd, Z.odd_add, <- T. reflexivity.
    + exists q, s. rewrite PD. unfold P in *. split; [lia|]. split; [lia|]. split; [reflexivity|].
      rewrite <- Z.negb_odd, <- T. reflexivity.
Qed.

Lemma exact_nearest n : 0 <= n < 2 ^ p -> nearest_even p n n.
Proof.
  intros Hn. unfold nearest_even. rewrite Z.sub_diag. cbn [Z.abs]. split; [|split; [|split]].
  - exists n, 0. rewrite Z.mul_1_r. lia.
  - intros. lia.
  - intros. lia.
  - intros w _ Nw E. lia.
Qed.

(** The significand and exponent of the rounded number. *)
Lemma rounded s n : 0 < n -> Z.log2 n < emax -> s = 0 \/ s = 1 ->
  let e := Z.log2 n in
  let t := e - (p - 1) in
  let m := if t <=? 0 then n * 2 ^ (- t)
           else let q := n / 2 ^ t in let r := n mod 2 ^ t in
                if (2 ^ t <? 2 * r) || ((2 * r =? 2 ^ t) && Z.odd q) then q + 1 else q in
  P <= m <= 2 * P /\ rounds_to p emax (0 <? s) n (s * (P * (2 * emax)) + ((e + emax - 2) * P + m)).
Proof.
  intros Hn Le Ss. cbv zeta. set (e := Z.log2 n) in *. set (t := e - (p - 1)). pose proof P_pos as PP. pose proof P_double as PD.
  pose proof (Z.log2_spec n Hn) as [L1 L2]. fold e in L1, L2. pose proof (Z.log2_nonneg n) as Pe. fold e in Pe.
  destruct (Z.leb_spec t 0) as [C|C].
  - assert (B : P <= n * 2 ^ (- t) < 2 * P).
    { assert (0 < 2 ^ (- t)) by (apply Z.pow_pos_nonneg; lia).
      assert (E1 : P = 2 ^ e * 2 ^ (- t)) by (rewrite <- Z.pow_add_r by lia; unfold P; f_equal; lia).
      assert (E2 : 2 * P = 2 ^ Z.succ e * 2 ^ (- t)) by (rewrite <- Z.pow_add_r by lia; rewrite <- PD; f_equal; lia).
      rewrite E2, E1. split; nia. }
    split; [lia|]. exists n. split.
    + apply exact_nearest. split; [lia|]. apply Z.lt_le_trans with (2 ^ Z.succ e); [lia|]. apply Z.pow_le_mono_r; lia.
    + assert (n <? 2 ^ emax = true) as ->.
      { apply Z.ltb_lt. apply Z.lt_le_trans with (2 ^ Z.succ e); [lia|]. apply Z.pow_le_mono_r; lia. }
      pose proof (decode_normal s e (n * 2 ^ (- t)) ltac:(lia) ltac:(lia) Ss) as Q. cbv zeta in Q.
      rewrite (proj2 (Z.eqb_neq (n * 2 ^ (- t)) (2 * P))), andb_false_r in Q by lia. apply Q. fold t.
      destruct (Z.leb_spec 0 t); [|lia]. replace t with 0 by lia. lia.
  - assert (P2 : 0 < 2 ^ t) by (apply Z.pow_pos_nonneg; lia).
    set (q := n / 2 ^ t). set (r := n mod 2 ^ t).
    assert (E : n = q * 2 ^ t + r) by (unfold q, r; pose proof (Z.div_mod n (2 ^ t) ltac:(lia)); lia).
    assert (Hr : 0 <= r < 2 ^ t) by (apply Z.mod_pos_bound; auto).
    assert (Hq : P <= q < 2 * P).
    { assert (E1 : 2 ^ e = P * 2 ^ t) by (unfold P; rewrite <- Z.pow_add_r by lia; f_equal; lia).
      rewrite Z.pow_succ_r in L2 by lia. rewrite E1 in *. unfold q. split; [apply Z.div_le_lower_bound; lia|].
      apply Z.div_lt_upper_bound; lia. }
    pose proof (round_nearest q t r C Hq Hr) as R. rewrite <- E in R.
    set (m := if (2 ^ t <? 2 * r) || ((2 * r =? 2 ^ t) && Z.odd q) then q + 1 else q) in *.
    assert (Hm : P <= m <= 2 * P) by (unfold m; destruct (_ || _); lia). clearbody m. split; [auto|].
    exists (m * 2 ^ t). split; [exact R|].
    assert (Et : 2 ^ t * (2 * P) = 2 ^ (e + 1)) by (rewrite <- PD, <- Z.pow_add_r by lia; f_equal; lia).
    pose proof (decode_normal s e m ltac:(lia) Hm Ss) as Q. cbv zeta in Q. fold t in Q.
    destruct (Z.eqb_spec e (emax - 1)) as [Ee|Ne]; cbn [andb] in Q.
    + destruct (Z.eqb_spec m (2 * P)) as [->|Nm].
      * assert (2 * P * 2 ^ t <? 2 ^ emax = false) as ->; [|exact Q]. apply Z.ltb_ge. rewrite Z.mul_comm, Et.
        apply Z.pow_le_mono_r; lia.
      * assert (m * 2 ^ t <? 2 ^ emax = true) as ->.
        { apply Z.ltb_lt. replace emax with (e + 1) by lia. rewrite <- Et. nia. }
        apply Q. rewrite (proj2 (Z.leb_le 0 t)) by lia. reflexivity.
    + assert (m * 2 ^ t <? 2 ^ emax = true) as ->.
      { apply Z.ltb_lt. assert (2 ^ (e + 1) < 2 ^ emax) by (apply Z.pow_lt_mono_r; lia). nia. }
      apply Q. rewrite (proj2 (Z.leb_le 0 t)) by lia. reflexivity.
Qed.

Lemma rounds_to_zero : rounds_to p emax false 0 0.
Proof.
  exists 0. split; [apply exact_nearest; split; [lia|apply Z.pow_pos_nonneg; lia]|].
  assert (0 <? 2 ^ emax = true) as -> by (apply Z.ltb_lt, Z.pow_pos_nonneg; lia).
  unfold is_finite. pose proof P_pos. pose proof (decode_fields 0 0 0 ltac:(lia) ltac:(lia) ltac:(lia)) as D. rewrite !Z.mul_0_l, !Z.add_0_r in D.
  rewrite D. rewrite (proj2 (Z.eqb_neq 0 (2 * emax - 1))) by lia. cbn [Z.eqb]. split; [reflexivity|].
  destruct (Z.leb_spec 0 (3 - emax - p)); lia.
Qed.

(** Everything above the largest exponent rounds to infinity. *)
Lemma rounds_to_infinity s n : 2 ^ emax <= n -> s = 0 \/ s = 1 ->
  rounds_to p emax (0 <? s) n (s * (P * (2 * emax)) + (2 * emax - 1) * P).
Proof.
  intros Hn Ss. pose proof P_pos as PP. pose proof P_double as PD.
  assert (0 < n) by (assert (0 < 2 ^ emax) by (apply Z.pow_pos_nonneg; lia); lia).
  set (e := Z.log2 n). set (t := e - (p - 1)).
  assert (Le : emax <= e) by (apply Z.log2_le_pow2; lia).
  pose proof (Z.log2_spec n ltac:(lia)) as [L1 L2]. fold e in L1, L2.
  assert (P2 : 0 < 2 ^ t) by (apply Z.pow_pos_nonneg; lia).
  set (q := n / 2 ^ t). set (r := n mod 2 ^ t).
  assert (E : n = q * 2 ^ t + r) by (unfold q, r; pose proof (Z.div_mod n (2 ^ t) ltac:(lia)); lia).
  assert (Hr : 0 <= r < 2 ^ t) by (apply Z.mod_pos_bound; auto).
  assert (E1 : 2 ^ e = P * 2 ^ t) by (unfold P; rewrite <- Z.pow_add_r by lia; f_equal; lia).
  assert (Hq : P <= q < 2 * P).
  { rewrite Z.pow_succ_r in L2 by lia. rewrite E1 in *. unfold q. split; [apply Z.div_le_lower_bound; lia|].
    apply Z.div_lt_upper_bound; lia. }
  assert (C : 0 < t) by (unfold t; lia).
  pose proof (round_nearest q t r C Hq Hr) as R. rewrite <- E in R.
  set (m := if (2 ^ t <? 2 * r) || ((2 * r =? 2 ^ t) && Z.odd q) then q + 1 else q) in *.
  assert (Hm : P <= m <= 2 * P) by (unfold m; destruct (_ || _); lia). clearbody m.
  exists (m * 2 ^ t). split; [exact R|].
  assert (m * 2 ^ t <? 2 ^ emax = false) as ->.
  { apply Z.ltb_ge. apply Z.le_trans with (2 ^ e); [apply Z.pow_le_mono_r; lia|]. rewrite E1. nia. }
  pose proof (decode_fields s (2 * emax - 1) 0 ltac:(lia) ltac:(lia) ltac:(lia)) as D. rewrite Z.add_0_r in D. rewrite D.
  rewrite Z.eqb_refl. reflexivity.
Qed.

End Decode.

Definition fmt_ok (f : ffmt) : Prop := f = f32 \/ f = f64.

Lemma field_bound e emax P m : 0 < P -> 0 <= e < emax -> 2 < emax -> 0 <= m <= 2 * P -> 0 <= (e + emax - 2) * P + m <= (2 * emax - 1) * P.
Proof. intros. nia. Qed.
Lemma low_bound b x y : 0 <= b < 2 -> 0 <= y < x -> 0 <= b * x + y < 2 * x.
Proof. intros. nia. Qed.

(** ** Casts of primitive integers *)

Lemma cast_rounds f n : fmt_ok f -> 0 <= n < 2 ^ femax f ->
  rounds_to (fprec f) (femax f) false n (int_as_float f n) /\ 0 <= int_as_float f n < 2 ^ (fbits f - 1).
Proof.
  intros Hf Hn. unfold int_as_float. destruct (Z.eqb_spec n 0) as [->|N].
  - split; [|destruct Hf as [-> | ->]; cbn; lia]. apply rounds_to_zero; destruct Hf as [-> | ->]; cbn; lia.
  - assert (Hp : 2 <= fprec f) by (destruct Hf as [-> | ->]; cbn; lia).
    assert (He : fprec f < femax f) by (destruct Hf as [-> | ->]; cbn; lia).
    assert (Hs : 2 ^ (fbits f - 1) = 2 ^ (fprec f - 1) * (2 * femax f)) by (destruct Hf as [-> | ->]; reflexivity).
    assert (L : Z.log2 n < femax f) by (apply Z.log2_lt_pow2; lia).
    destruct (rounded (fprec f) (femax f) Hp He 0 n ltac:(lia) L ltac:(auto)) as [M R]. cbv zeta in *.
    rewrite Z.mul_0_l, Z.add_0_l in R. change (0 <? 0) with false in R. split; [exact R|].
    set (m := if _ <=? 0 then _ else _) in *. pose proof (Z.log2_nonneg n).
    rewrite Hs. assert (0 < 2 ^ (fprec f - 1)) by (apply Z.pow_pos_nonneg; lia). nia.
Qed.

Lemma f_neg_add f bits : fmt_ok f -> 0 <= bits < 2 ^ (fbits f - 1) -> f_neg f bits = 2 ^ (fbits f - 1) + bits.
Proof.
  intros Hf Hb. unfold f_neg. rewrite Z.add_comm. symmetry. apply Z.add_nocarry_lxor.
  assert (Fb : 0 <= fbits f - 1) by (destruct Hf as [-> | ->]; cbn; lia).
  apply Z.bits_inj'. intros i Hi. rewrite Z.land_spec, Z.bits_0, Z.pow2_bits_eqb by auto.
  destruct (Z.eqb_spec (fbits f - 1) i) as [<-|]; [|apply andb_false_r].
  rewrite andb_true_r. apply Z.bits_above_log2; [lia|]. destruct (Z.eq_dec bits 0) as [->|]; [cbn; destruct Hf as [-> | ->]; cbn; lia|].
  apply Z.log2_lt_pow2; lia.
Qed.

Lemma rounds_neg f n bits : fmt_ok f -> 0 < n -> 0 <= bits < 2 ^ (fbits f - 1) ->
  rounds_to (fprec f) (femax f) false n bits -> rounds_to (fprec f) (femax f) true n (f_neg f bits).
Proof.
  intros Hf Hn Hb (v & Nv & R). exists v. split; [auto|].
  assert (Hp : 2 <= fprec f) by (destruct Hf as [-> | ->]; cbn; lia).
  assert (He : fprec f < femax f) by (destruct Hf as [-> | ->]; cbn; lia).
  assert (Hs : 2 ^ (fbits f - 1) = 2 ^ (fprec f - 1) * (2 * femax f)) by (destruct Hf as [-> | ->]; reflexivity).
  set (P := 2 ^ (fprec f - 1)) in *. assert (PP : 0 < P) by (apply Z.pow_pos_nonneg; lia).
  pose proof (f_neg_add f bits Hf Hb) as Ef.
  set (frac := bits mod P). set (ex := bits / P).
  assert (Eb : bits = ex * P + frac) by (unfold ex, frac; pose proof (Z.div_mod bits P ltac:(lia)); lia).
  assert (Hfr : 0 <= frac < P) by (apply Z.mod_pos_bound; auto).
  assert (Hx : 0 <= ex < 2 * femax f).
  { unfold ex. split; [apply Z.div_pos; lia|]. apply Z.div_lt_upper_bound; lia. }
  pose proof (decode_fields (fprec f) (femax f) Hp 0 ex frac Hfr Hx ltac:(lia)) as D0.
  pose proof (decode_fields (fprec f) (femax f) Hp 1 ex frac Hfr Hx ltac:(lia)) as D1.
  fold P in D0, D1. rewrite Z.mul_0_l, Z.add_0_l, <- Eb in D0.
  assert (E1 : 1 * (P * (2 * femax f)) + ex * P + frac = f_neg f bits) by (rewrite Ef, Hs; lia). rewrite E1 in D1.
  unfold is_finite in *. rewrite D0 in R. rewrite D1. change (0 <? 0) with false in R. change (0 <? 1) with true.
  destruct (v <? _), (ex =? _), (frac =? 0), (ex =? 0); try discriminate; try tauto; try reflexivity.
Qed.

Section Float.
Context {A : Arch} {AOK : ArchOk A}.

(** Low bit of the mantissa, first discarded bit, and whether the rest is nonzero. *)
Lemma adjustment m2 (x : bool) : 0 <= m2 ->
  round_to_even_adjustment (Z.lor (Z.shiftl (Z.land m2 3) 1) (Z.b2z x)) =
  (m2 mod 2 =? 1) && (x || Z.odd (m2 / 2)).
Proof.
  intros H. change 3 with (Z.ones 2). rewrite Z.land_ones by lia. change (2 ^ 2) with 4.
  pose proof (Z.div_mod m2 4 ltac:(lia)) as D. pose proof (Z.mod_pos_bound m2 4 ltac:(lia)) as R.
  set (q := m2 / 4) in *. set (r := m2 mod 4) in *. clearbody q r.
  assert (Hm : m2 mod 2 = r mod 2) by (subst m2; replace (4 * q + r) with (r + 2 * q * 2) by ring; apply Z.mod_add; lia).
  assert (Hd : Z.odd (m2 / 2) = Z.odd (r / 2)).
  { subst m2. replace (4 * q + r) with (r + 2 * q * 2) by ring. rewrite Z.div_add by lia. rewrite Z.odd_add, Z.odd_mul.
    cbn [andb Z.odd]. apply xorb_false_r. }
  rewrite Hm, Hd. assert (r = 0 \/ r = 1 \/ r = 2 \/ r = 3) as [-> |[-> |[-> | ->]]] by lia; destruct x; reflexivity.
Qed.

Lemma slow_rounds f u : fmt_ok f -> ubig_ok u -> 2 ^ fbits f <= uval u ->
  exists bits, to_float_slow f u = Ok bits /\ rounds_to (fprec f) (femax f) false (uval u) bits /\ 0 <= bits < 2 ^ (fbits f - 1).
Proof.
  intros Hf Hu L. set (n := uval u) in *.
  assert (Hp : 2 <= fprec f) by (destruct Hf as [-> | ->]; cbn; lia).
  assert (He : fprec f < femax f) by (destruct Hf as [-> | ->]; cbn; lia).
  assert (Hpb : fprec f + 1 < fbits f) by (destruct Hf as [-> | ->]; cbn; lia).
  assert (Hs : 2 ^ (fbits f - 1) = 2 ^ (fprec f - 1) * (2 * femax f)) by (destruct Hf as [-> | ->]; reflexivity).
  assert (Htb : prim_bits (fbits f)) by (destruct Hf as [-> | ->]; unfold prim_bits; cbn; lia).
  assert (P0 : 0 < n) by (assert (0 < 2 ^ fbits f) by (apply Z.pow_pos_nonneg; lia); lia).
  unfold to_float_slow. rewrite ubig_bit_len_spec by auto. fold n. cbn [bind].
  unfold bitlen. rewrite (proj2 (Z.eqb_neq n 0)) by lia. set (e := Z.log2 n) in *.
  assert (Le : fbits f <= e) by (apply Z.log2_le_pow2; lia).
  rewrite (proj2 (Z.ltb_lt (fbits f) (e + 1))) by lia.
  assert (0 < 2 ^ (fprec f - 1)) as PP by (apply Z.pow_pos_nonneg; lia).
  destruct (Z.ltb_spec (femax f) (e + 1)) as [C|C].
  - exists (f_infinity f). split; [reflexivity|]. unfold f_infinity. split.
    + pose proof (rounds_to_infinity (fprec f) (femax f) Hp He 0 n) as R. rewrite Z.mul_0_l, Z.add_0_l in R. apply R; [|auto].
      pose proof (Z.log2_spec n P0) as [L1 _]. fold e in L1. apply Z.le_trans with (2 ^ e); [apply Z.pow_le_mono_r; lia|auto].
    + rewrite Hs. nia.
  - replace (e + 1 - 1) with e by ring. rewrite (proj2 (Z.leb_le (fbits f) e)) by lia. rewrite (proj2 (Z.ltb_lt e (femax f))) by lia.
    cbn [andb]. set (t := e - (fprec f - 1)).
    replace (e + 1 - (fprec f + 1)) with (t - 1) by (unfold t; ring).
    assert (Ht : 0 < t - 1) by (unfold t; lia).
    destruct (shr_returns (ubig_shr_r u (t - 1)) u (t - 1) Hu ltac:(lia)) as (x & -> & Hx & Vx); [apply ubig_shr_r_yields; auto; lia|].
    cbn [bind]. rewrite ubig_try_to_unsigned_spec by auto. cbn [bind]. fold n in Vx.
    set (m2 := uval x) in *.
    destruct (rounded (fprec f) (femax f) Hp He 0 n P0 ltac:(fold e; lia) ltac:(auto)) as [M R]. cbv zeta in *. fold e in M, R. fold t in M, R.
    rewrite (proj2 (Z.leb_gt t 0)) in M, R by lia. rewrite Z.mul_0_l, Z.add_0_l in R. change (0 <? 0) with false in R.
    assert (P2 : 0 < 2 ^ (t - 1)) by (apply Z.pow_pos_nonneg; lia).
    assert (T2 : 2 ^ t = 2 * 2 ^ (t - 1)) by (rewrite <- Z.pow_succ_r by lia; f_equal; lia).
    set (y := n mod 2 ^ (t - 1)).
    assert (En : n = m2 * 2 ^ (t - 1) + y) by (rewrite Vx; unfold y; pose proof (Z.div_mod n (2 ^ (t - 1)) ltac:(lia)); lia).
    assert (Hy : 0 <= y < 2 ^ (t - 1)) by (apply Z.mod_pos_bound; auto).
    pose proof (Z.div_mod m2 2 ltac:(lia)) as D2. pose proof (Z.mod_pos_bound m2 2 ltac:(lia)) as R2.
    set (q := m2 / 2) in *. set (b := m2 mod 2) in *.
    assert (Hm2 : 0 <= m2) by (apply uval_nonneg in Hx; auto).
    assert (Eq : n / 2 ^ t = q).
    { symmetry. apply Z.div_unique with (b * 2 ^ (t - 1) + y); [left; rewrite T2; exact (low_bound _ _ _ R2 Hy)|]. rewrite En, T2. rewrite D2 at 1. ring. }
    assert (Er : n mod 2 ^ t = b * 2 ^ (t - 1) + y).
    { symmetry. apply Z.mod_unique with q; [left; rewrite T2; exact (low_bound _ _ _ R2 Hy)|]. rewrite En, T2. rewrite D2 at 1. ring. }
    rewrite Eq, Er, T2 in R. rewrite Eq, Er, T2 in M.
    set (up := (2 * 2 ^ (t - 1) <? 2 * (b * 2 ^ (t - 1) + y)) || ((2 * (b * 2 ^ (t - 1) + y) =? 2 * 2 ^ (t - 1)) && Z.odd q)) in *.
    assert (Hq : 2 ^ (fprec f - 1) <= q < 2 * 2 ^ (fprec f - 1)).
    { pose proof (Z.log2_spec n P0) as [L1 L2]. fold e in L1, L2.
      assert (E1 : 2 ^ e = 2 ^ (fprec f - 1) * 2 ^ t) by (rewrite <- Z.pow_add_r by lia; f_equal; lia).
      rewrite Z.pow_succ_r in L2 by lia. rewrite E1 in *. rewrite <- Eq.
      split; [apply Z.div_le_lower_bound; lia|]. apply Z.div_lt_upper_bound; lia. }
    assert (m2 <? 2 ^ fbits f = true) as ->.
    { apply Z.ltb_lt. assert (2 ^ fbits f = 2 * 2 ^ (fbits f - 1)) as -> by (rewrite <- Z.pow_succ_r by lia; f_equal; lia).
      rewrite Hs. clear - Hq D2 R2 PP He Hp. nia. }
    assert (E32 : 2 ^ fbits f = 2 * (2 ^ (fprec f - 1) * (2 * femax f))).
    { rewrite <- Hs, <- Z.pow_succ_r by lia. f_equal. lia. }
    rewrite Z.shiftr_div_pow2, Z.shiftl_mul_pow2 by lia. change (2 ^ 1) with 2. fold q.
    replace (e + (femax f - 2)) with (e + femax f - 2) by ring.
    assert (V0 : 0 <= (e + femax f - 2) * 2 ^ (fprec f - 1) + q /\ (e + femax f - 2) * 2 ^ (fprec f - 1) + q + 1 < 2 ^ fbits f).
    { pose proof (field_bound e (femax f) _ q PP ltac:(lia) ltac:(lia) ltac:(lia)). rewrite E32. clear - H PP He Hp. nia. }
    unfold checked at 1. rewrite (proj2 (Z.leb_le _ _)) by lia. rewrite (proj2 (Z.ltb_lt _ _)) by lia. cbn [andb bind].
    rewrite are_low_bits_spec by (auto; lia). cbn [bind]. fold n. fold y.
    rewrite adjustment by auto. fold q. fold b.
    assert (Up : (b =? 1) && (negb (y =? 0) || Z.odd q) = up).
    { unfold up. assert (b = 0 \/ b = 1) as [-> | ->] by lia.
      - cbn [Z.eqb andb]. symmetry. apply orb_false_intro; [|rewrite (proj2 (Z.eqb_neq _ _)) by lia; reflexivity]. lia.
      - change (1 =? 1) with true. cbn [andb]. destruct (Z.eqb_spec y 0) as [->|Ny]; cbn [negb orb].
        + rewrite (proj2 (Z.ltb_ge _ _)) by lia. rewrite (proj2 (Z.eqb_eq _ _)) by lia. reflexivity.
        + rewrite (proj2 (Z.ltb_lt _ _)) by lia. reflexivity. }
    rewrite Up. set (bits := (e + femax f - 2) * 2 ^ (fprec f - 1) + q + Z.b2z up).
    assert (Eb : bits = (e + femax f - 2) * 2 ^ (fprec f - 1) + (if up then q + 1 else q)) by (unfold bits; destruct up; cbn [Z.b2z]; ring).
    exists bits. split.
    { unfold checked. rewrite (proj2 (Z.leb_le _ _)), (proj2 (Z.ltb_lt _ _)) by (unfold bits; destruct up; cbn [Z.b2z]; lia). reflexivity. }
    rewrite Eb. split; [exact R|]. rewrite Hs. pose proof (field_bound e (femax f) _ _ PP ltac:(lia) ltac:(lia) (conj (Z.le_trans _ _ _ (Z.lt_le_incl _ _ PP) (proj1 M)) (proj2 M))).
    clear - H PP He Hp. nia.
Qed.

Lemma ubig_to_float_spec f u : fmt_ok f -> ubig_ok u ->
  exists bits, ubig_to_float f u = Ok bits /\ rounds_to (fprec f) (femax f) false (uval u) bits /\ 0 <= bits < 2 ^ (fbits f - 1).
Proof.
  intros Hf Hu.
  assert (Hl : fbits f <= femax f /\ 64 <= femax f) by (destruct Hf as [-> | ->]; cbn; lia).
  destruct u as [w|b]; cbn [ubig_to_float].
  - exists (int_as_float f w). split; [auto|]. apply cast_rounds; auto. cbn in Hu. cbn [uval]. split; [lia|].
    apply Z.lt_le_trans with B; [lia|]. unfold B. apply Z.pow_le_mono_r; [lia|]. destruct AOK as [[->|[->| ->]] _]; lia.
  - rewrite ubig_try_to_unsigned_spec by (auto; destruct Hf as [-> | ->]; unfold prim_bits; cbn; lia). cbn [bind].
    destruct (Z.ltb_spec (uval (Large b)) (2 ^ fbits f)) as [C|C].
    + exists (int_as_float f (uval (Large b))). split; [auto|]. apply cast_rounds; auto. apply uval_nonneg in Hu. split; [auto|].
      apply Z.lt_le_trans with (2 ^ fbits f); [auto|]. apply Z.pow_le_mono_r; lia.
    + apply slow_rounds; auto.
Qed.

Lemma ibig_to_float_spec f x : fmt_ok f -> ibig_ok x ->
  exists bits, ibig_to_float f x = Ok bits /\ rounds_to (fprec f) (femax f) (ival x <? 0) (Z.abs (ival x)) bits /\ 0 <= bits < 2 ^ fbits f.
Proof.
  intros Hf [Hx Zx]. unfold ibig_to_float. destruct (ubig_to_float_spec f (imag x) Hf Hx) as (bits & -> & R & Rb). cbn [bind].
  eexists. split; [reflexivity|]. pose proof (uval_nonneg _ Hx) as P. unfold ival. destruct (isign x) eqn:S; cbn [sign_val].
  - rewrite Z.mul_1_l. rewrite (proj2 (Z.ltb_ge _ _)) by lia. rewrite Z.abs_eq by lia. split; [auto|].
    destruct Hf as [-> | ->]; cbn in Rb |- *; lia.
  - assert (uval (imag x) <> 0) by (intros E; specialize (Zx E); congruence).
    rewrite (proj2 (Z.ltb_lt _ _)) by lia. replace (Z.abs (-1 * uval (imag x))) with (uval (imag x)) by lia.
    split; [apply rounds_neg; auto; lia|]. rewrite f_neg_add by auto. destruct Hf as [-> | ->]; cbn in Rb |- *; lia.
Qed.

End Float.

(** ** The rounded number is unique *)

Lemma precise_double p a : 1 <= p -> precise p a -> forall b, precise p b -> a < b ->
  (exists m e, 0 <= e /\ 2 ^ (p - 1) <= m < 2 ^ p /\ a = m * 2 ^ e /\ Z.even m = true) ->
  (exists m e, 0 <= e /\ 2 ^ (p - 1) <= m < 2 ^ p /\ b = m * 2 ^ e /\ Z.even m = true) ->
  exists c, precise p c /\ a < c < b.
Proof.
  intros Hp _ b _ L (m & e & He & Hm & Ea & Ev) (m' & e' & He' & Hm' & Eb & Ev').
  assert (P2 : 0 < 2 ^ e) by (apply Z.pow_pos_nonneg; lia). assert (P2' : 0 < 2 ^ e') by (apply Z.pow_pos_nonneg; lia).
  assert (PD : 2 ^ p = 2 * 2 ^ (p - 1)) by (rewrite <- Z.pow_succ_r by lia; f_equal; lia).
  (* the successor of [a] at its own exponent *)
  exists ((m + 1) * 2 ^ e). split.
  - destruct (Z.eq_dec (m + 1) (2 ^ p)) as [E|N].
    + exists (2 ^ (p - 1)), (e + 1). split; [lia|]. split; [split; [apply Z.pow_nonneg; lia|apply Z.pow_lt_mono_r; lia]|].
      rewrite E, PD, Z.pow_add_r by lia. change (2 ^ 1) with 2. ring.
    + exists (m + 1), e. lia.
  - split; [nia|]. subst a b. 
    assert (e <= e').
    { destruct (Z.le_gt_cases e e') as [|G]; [auto|]. exfalso.
      replace e with (e - e' + e') in L by ring. rewrite Z.pow_add_r, Z.mul_assoc in L by lia.
      apply Z.mul_lt_mono_pos_r in L; [|auto].
      assert (2 <= 2 ^ (e - e')) by (change 2 with (2 ^ 1) at 1; apply Z.pow_le_mono_r; lia).
      assert (0 < 2 ^ (p - 1)) by (apply Z.pow_pos_nonneg; lia). nia. }
    replace e' with (e' - e + e) in * by ring. rewrite Z.pow_add_r, Z.mul_assoc in * by lia.
    set (k := m' * 2 ^ (e' - e)) in *. apply Z.mul_lt_mono_pos_r in L; [|auto]. apply Z.mul_lt_mono_pos_r; [auto|].
    assert (Evk : Z.even k = true) by (unfold k; rewrite Z.even_mul, Ev'; reflexivity).
    apply Z.even_spec in Ev as [x ->]. apply Z.even_spec in Evk as [y Ey]. rewrite Ey in *. lia.
Qed.

Lemma nearest_even_unique p n v w : 2 <= p -> 0 <= n -> nearest_even p n v -> nearest_even p n w -> v = w.
Proof.
  intros Hp Hn (Pv & Nv & _ & Tv) (Pw & Nw & _ & Tw). destruct (Z.eq_dec v w) as [|N]; [auto|]. exfalso.
  pose proof (Nv w Pw) as D1. pose proof (Nw v Pv) as D2.
  pose proof (Tv w Pw ltac:(congruence) ltac:(lia)) as Ev. pose proof (Tw v Pv ltac:(congruence) ltac:(lia)) as Ew.
  destruct (Z.lt_ge_cases v w) as [L|L].
  - destruct (precise_double p v ltac:(lia) Pv w Pw L Ev Ew) as (c & Pc & Hc). pose proof (Nv c Pc). lia.
  - destruct (precise_double p w ltac:(lia) Pw v Pv ltac:(lia) Ew Ev) as (c & Pc & Hc). pose proof (Nv c Pc). lia.
Qed.

(** ** The bit pattern is unique *)

(** The value of a finite pattern, scaled to be an integer. *)
Definition scaled (p ex frac : Z) : Z := if ex =? 0 then frac * 2 ^ 3 else (2 ^ (p - 1) + frac) * 2 ^ (ex + 2).

Lemma scaled_lt p x1 f1 x2 f2 : 2 <= p -> 0 <= x1 -> x1 < x2 -> 0 <= f1 < 2 ^ (p - 1) -> 0 <= f2 < 2 ^ (p - 1) -> scaled p x1 f1 < scaled p x2 f2.
Proof.
  intros Hp H0 L H1 H2. unfold scaled. rewrite (proj2 (Z.eqb_neq x2 0)) by lia. set (q := 2 ^ (p - 1)) in *.
  assert (2 ^ 3 <= 2 ^ (x2 + 2)) as E3 by (apply Z.pow_le_mono_r; lia). destruct (Z.eqb_spec x1 0) as [->|N].
  - change (2 ^ 3) with 8 in *. nia.
  - assert (2 ^ (x1 + 2) * 2 <= 2 ^ (x2 + 2)) as E.
    { rewrite Z.mul_comm, <- Z.pow_succ_r by lia. apply Z.pow_le_mono_r; lia. }
    assert (0 < 2 ^ (x1 + 2)) by (apply Z.pow_pos_nonneg; lia). nia.
Qed.

Lemma scaled_inj p x1 f1 x2 f2 : 2 <= p -> 0 <= x1 -> 0 <= x2 -> 0 <= f1 < 2 ^ (p - 1) -> 0 <= f2 < 2 ^ (p - 1) ->
  scaled p x1 f1 = scaled p x2 f2 -> x1 = x2 /\ f1 = f2.
Proof.
  intros Hp P1 P2 H1 H2 E. destruct (Z.lt_trichotomy x1 x2) as [L|[->|L]].
  - pose proof (scaled_lt p x1 f1 x2 f2 Hp P1 L H1 H2). lia.
  - split; [auto|]. unfold scaled in E. assert (0 < 2 ^ (x2 + 2)) by (apply Z.pow_pos_nonneg; lia).
    destruct (x2 =? 0); [change (2 ^ 3) with 8 in E; lia|nia].
  - pose proof (scaled_lt p x2 f2 x1 f1 Hp P2 L H2 H1). lia.
Qed.

Lemma finite_scaled p emax bits neg v : 2 <= p -> 2 <= emax -> is_finite p emax bits neg v ->
  let frac := bits mod 2 ^ (p - 1) in let ex := (bits / 2 ^ (p - 1)) mod (2 * emax) in
  neg = (0 <? bits / 2 ^ (p - 1) / (2 * emax)) /\ v * 2 ^ (emax + p) = scaled p ex frac.
Proof.
  intros Hp He. unfold is_finite, decode, scaled. set (frac := bits mod _). set (ex := (_ mod (2 * emax))).
  assert (0 <= ex < 2 * emax) as Hx by (apply Z.mod_pos_bound; lia).
  assert (forall m e, 3 <= e + emax + p -> (if 0 <=? e then v = m * 2 ^ e else v * 2 ^ (- e) = m) -> v * 2 ^ (emax + p) = m * 2 ^ (e + emax + p)) as K.
  { intros m e Le. destruct (Z.leb_spec 0 e) as [P|N]; intros E.
    - rewrite E, <- Z.mul_assoc, <- Z.pow_add_r by lia. do 2 f_equal. lia.
    - rewrite <- E, <- Z.mul_assoc, <- Z.pow_add_r by lia. do 2 f_equal. lia. }
  destruct (ex =? 2 * emax - 1); [destruct (frac =? 0); contradiction|].
  destruct (Z.eqb_spec ex 0) as [E|N]; intros [S V]; (split; [auto|]); apply K in V; try lia; rewrite V; do 2 f_equal; lia.
Qed.

Lemma infinite_fields p emax bits neg : decode p emax bits = Infinite neg ->
  bits mod 2 ^ (p - 1) = 0 /\ (bits / 2 ^ (p - 1)) mod (2 * emax) = 2 * emax - 1 /\ neg = (0 <? bits / 2 ^ (p - 1) / (2 * emax)).
Proof.
  unfold decode. destruct (Z.eqb_spec ((bits / 2 ^ (p - 1)) mod (2 * emax)) (2 * emax - 1)) as [E|].
  - destruct (Z.eqb_spec (bits mod 2 ^ (p - 1)) 0) as [F|]; [|discriminate]. intros [= <-]. auto.
  - destruct (_ =? 0); discriminate.
Qed.

Lemma fields_bits p emax bits : 2 <= p -> 2 <= emax -> 0 <= bits < 2 ^ (p - 1) * (4 * emax) ->
  bits = bits mod 2 ^ (p - 1) + 2 ^ (p - 1) * ((bits / 2 ^ (p - 1)) mod (2 * emax) + 2 * emax * Z.b2z (0 <? bits / 2 ^ (p - 1) / (2 * emax))).
Proof.
  intros Hp He H. set (q := 2 ^ (p - 1)) in *. assert (0 < q) as Q by (apply Z.pow_pos_nonneg; lia).
  pose proof (Z.div_mod bits q ltac:(lia)) as E1. pose proof (Z.div_mod (bits / q) (2 * emax) ltac:(lia)) as E2.
  assert (0 <= bits / q) as P1 by (apply Z.div_pos; lia).
  assert (bits / q < 4 * emax) as P2 by (apply Z.div_lt_upper_bound; lia).
  assert (0 <= bits / q / (2 * emax)) as P3 by (apply Z.div_pos; lia).
  assert (bits / q / (2 * emax) < 2) as P4 by (apply Z.div_lt_upper_bound; lia).
  destruct (Z.ltb_spec 0 (bits / q / (2 * emax))) as [L|L]; cbn [Z.b2z].
  - replace (bits / q / (2 * emax)) with 1 in E2 by lia. rewrite E1 at 1. rewrite E2 at 1. ring.
  - replace (bits / q / (2 * emax)) with 0 in E2 by lia. rewrite E1 at 1. rewrite E2 at 1. ring.
Qed.

Theorem rounds_to_unique p emax neg n b1 b2 : 2 <= p -> 2 <= emax -> 0 <= n ->
  0 <= b1 < 2 ^ (p - 1) * (4 * emax) -> 0 <= b2 < 2 ^ (p - 1) * (4 * emax) ->
  rounds_to p emax neg n b1 -> rounds_to p emax neg n b2 -> b1 = b2.
Proof.
  intros Hp He Hn R1 R2 (v & N1 & H1) (w & N2 & H2). rewrite <- (nearest_even_unique p n v w Hp Hn N1 N2) in H2. clear N1 N2 w.
  rewrite (fields_bits p emax b1 Hp He R1), (fields_bits p emax b2 Hp He R2).
  assert (Q : 0 < 2 ^ (p - 1)) by (apply Z.pow_pos_nonneg; lia).
  destruct (v <? 2 ^ emax).
  - destruct (finite_scaled _ _ _ _ _ Hp He H1) as [S1 V1]. destruct (finite_scaled _ _ _ _ _ Hp He H2) as [S2 V2].
    rewrite <- S1, <- S2. rewrite V1 in V2. apply scaled_inj in V2 as [-> ->]; auto; try (apply Z.mod_pos_bound; lia).
  - destruct (infinite_fields _ _ _ _ H1) as (-> & -> & <-). destruct (infinite_fields _ _ _ _ H2) as (-> & -> & <-). reflexivity.
Qed.

Lemma float_bits_unique neg n b1 b2 : 0 <= n ->
  (0 <= b1 < 2 ^ 32 -> 0 <= b2 < 2 ^ 32 -> rounds_to 24 128 neg n b1 -> rounds_to 24 128 neg n b2 -> b1 = b2) /\
  (0 <= b1 < 2 ^ 64 -> 0 <= b2 < 2 ^ 64 -> rounds_to 53 1024 neg n b1 -> rounds_to 53 1024 neg n b2 -> b1 = b2).
Proof. intros Hn. split; intros R1 R2; apply rounds_to_unique; auto; lia. Qed.
