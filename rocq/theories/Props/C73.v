(** C73: the benchmarks. *)
From Coq Require Import ZArith List QArith Lia.
From Verif Require Import Model.Base Model.Buffer Model.UBig Model.IBig Model.Fmt Model.Parse Model.Rand Model.Modular Model.Bench
  Spec.Val Spec.Num Spec.FmtText Spec.Modular Spec.Rand Spec.Draws Spec.Bench
  Proofs.RandCost Proofs.BenchProofs Proofs.Samples Proofs.TextSamples.
Import List ListNotations.
Open Scope Z_scope.

(** [random_ubig] draws every number of the given number of bits with the same
    probability, and no others. *)
Theorem C73_random (A : Arch) (AOK : ArchOk A) (bits : Z) : 1 <= bits < MAX_BIT_LEN ->
  samples_ubig (fun k => random_ubig k bits) (2 ^ (bits - 1)) (2 ^ bits).
Proof. exact (random_samples bits). Qed.
Print Assumptions C73_random.

(** The sizes in the file fit with words and pointers of at least 32 bits: a theorem about
    [10 ^ e] below applies for [e] up to 6, the one on modular powers for [e] up to 4. *)
Theorem C73_sizes (A : Arch) (AOK : ArchOk A) : 32 <= wbits -> 32 <= ubits ->
  (forall e, 1 <= e <= 6 -> 1 <= e /\ 2 * 10 ^ e < MAX_BIT_LEN) /\
  (forall e, 1 <= e <= 4 -> 10 ^ e * (10 ^ e / wbits + 1) <= MAX_LEN).
Proof. exact sizes_fit. Qed.
Print Assumptions C73_sizes.

(** "Note: these don't work on 16-bit machines." *)
Theorem C73_not_16_bit (A : Arch) (AOK : ArchOk A) (k : nat) (e : Z) (cs : list Z) (r : res (option (ubig * ubig * ubig))) :
  wbits = 16 \/ ubits = 16 -> 5 <= e <= 6 -> runs (bench_add k e) cs r -> exists p, r = Panic p.
Proof. exact (too_big k e cs r). Qed.
Print Assumptions C73_not_16_bit.

Theorem C73_add (A : Arch) (AOK : ArchOk A) (k : nat) (e : Z) : 1 <= e /\ 2 * 10 ^ e < MAX_BIT_LEN ->
  never_panics (bench_add k e) (fun '(a, b, c) =>
    has_bits (10 ^ e) a /\ has_bits (10 ^ e) b /\ ubig_ok c /\ uval c = uval a + uval b).
Proof. exact (bench_add_good k e). Qed.
Print Assumptions C73_add.

(** The difference gives back the first number drawn. *)
Theorem C73_sub (A : Arch) (AOK : ArchOk A) (k : nat) (e : Z) : 1 <= e /\ 2 * 10 ^ e < MAX_BIT_LEN ->
  never_panics (bench_sub k e) (fun '(a, b, d) =>
    has_bits (10 ^ e) a /\ has_bits (10 ^ e) b /\ ubig_ok d /\ uval d = uval a).
Proof. exact (bench_sub_good k e). Qed.
Print Assumptions C73_sub.

Theorem C73_mul (A : Arch) (AOK : ArchOk A) (k : nat) (e : Z) : 1 <= e /\ 2 * 10 ^ e < MAX_BIT_LEN ->
  never_panics (bench_mul k e) (fun '(a, b, c) =>
    has_bits (10 ^ e) a /\ has_bits (10 ^ e) b /\ ubig_ok c /\ uval c = uval a * uval b).
Proof. exact (bench_mul_good k e). Qed.
Print Assumptions C73_mul.

(** A number of twice as many bits is divided. *)
Theorem C73_div (A : Arch) (AOK : ArchOk A) (k : nat) (e : Z) : 1 <= e /\ 2 * 10 ^ e < MAX_BIT_LEN ->
  never_panics (bench_div k e) (fun '(a, b, (q, r)) =>
    has_bits (2 * 10 ^ e) a /\ has_bits (10 ^ e) b /\ ubig_ok q /\ ubig_ok r /\
    uval a = uval q * uval b + uval r /\ 0 <= uval r < uval b).
Proof. exact (bench_div_good k e). Qed.
Print Assumptions C73_div.

Theorem C73_gcd (A : Arch) (AOK : ArchOk A) (k : nat) (e : Z) : 1 <= e /\ 2 * 10 ^ e < MAX_BIT_LEN ->
  never_panics (bench_gcd k e) (fun '(a, b, g) =>
    has_bits (10 ^ e) a /\ has_bits (10 ^ e) b /\ ubig_ok g /\ uval g = Z.gcd (uval a) (uval b)).
Proof. exact (bench_gcd_good k e). Qed.
Print Assumptions C73_gcd.

Theorem C73_extended_gcd (A : Arch) (AOK : ArchOk A) (k : nat) (e : Z) : 1 <= e /\ 2 * 10 ^ e < MAX_BIT_LEN ->
  never_panics (bench_extended_gcd k e) (fun '(a, b, (g, x, y)) =>
    has_bits (10 ^ e) a /\ has_bits (10 ^ e) b /\ ubig_ok g /\ ibig_ok x /\ ibig_ok y /\
    uval g = Z.gcd (uval a) (uval b) /\ uval a * ival x + uval b * ival y = uval g).
Proof. exact (bench_extended_gcd_good k e). Qed.
Print Assumptions C73_extended_gcd.

(** The digits fit the capacity that the string was made with: it is never reallocated
    while the time is measured. *)
Theorem C73_to_hex (A : Arch) (AOK : ArchOk A) (be : bool) (k : nat) (e : Z) : 1 <= e /\ 2 * 10 ^ e < MAX_BIT_LEN ->
  never_panics (bench_to_hex be k e) (fun '(a, out, capacity) =>
    has_bits (10 ^ e) a /\ (exists ds, canonical 16 (uval a) ds /\ out = map (digit_text false) ds) /\
    Z.of_nat (length out) <= capacity).
Proof. exact (bench_to_hex_good be k e). Qed.
Print Assumptions C73_to_hex.

Theorem C73_to_dec (A : Arch) (AOK : ArchOk A) (be : bool) (k : nat) (e : Z) : 1 <= e /\ 2 * 10 ^ e < MAX_BIT_LEN ->
  never_panics (bench_to_dec be k e) (fun '(a, out, capacity) =>
    has_bits (10 ^ e) a /\ (exists ds, canonical 10 (uval a) ds /\ out = map (digit_text false) ds) /\
    Z.of_nat (length out) <= capacity).
Proof. exact (bench_to_dec_good be k e). Qed.
Print Assumptions C73_to_dec.

(** The text is read successfully, as the number it was made from. *)
Theorem C73_from_text (A : Arch) (AOK : ArchOk A) (radix : Z) (be : bool) (k : nat) (e : Z) :
  radix = 10 \/ radix = 16 -> 1 <= e /\ 2 * 10 ^ e < MAX_BIT_LEN ->
  never_panics (bench_from_text radix be k e) (fun '(a, r) =>
    has_bits (10 ^ e) a /\ exists u, r = POk u /\ ubig_ok u /\ uval u = uval a).
Proof. exact (bench_from_text_good radix be k e). Qed.
Print Assumptions C73_from_text.

Theorem C73_pow (A : Arch) (AOK : ArchOk A) (e : Z) : 1 <= e /\ 2 * 10 ^ e < MAX_BIT_LEN ->
  returns (bench_pow e) (3 ^ 10 ^ e).
Proof. exact (bench_pow_good e). Qed.
Print Assumptions C73_pow.

Theorem C73_modulo_mul (A : Arch) (AOK : ArchOk A) (addr : Z) (k : nat) (e : Z) : 1 <= e /\ 2 * 10 ^ e < MAX_BIT_LEN ->
  never_panics (bench_modulo_mul addr k e) (fun '(m, u, v, c) =>
    has_bits (10 ^ e) m /\ has_bits (10 ^ e) u /\ has_bits (10 ^ e) v /\
    exists r, is_ring r (uval m) /\ element r (uval m) c ((uval u * uval v) mod uval m)).
Proof. exact (bench_modulo_mul_good addr k e). Qed.
Print Assumptions C73_modulo_mul.

Theorem C73_modulo_pow (A : Arch) (AOK : ArchOk A) (addr : Z) (k : nat) (e : Z) : 1 <= e /\ 2 * 10 ^ e < MAX_BIT_LEN ->
  10 ^ e * (10 ^ e / wbits + 1) <= MAX_LEN ->
  never_panics (bench_modulo_pow addr k e) (fun '(m, u, b, c) =>
    has_bits (10 ^ e) m /\ has_bits (10 ^ e) u /\ has_bits (10 ^ e) b /\
    exists r, is_ring r (uval m) /\ element r (uval m) c ((uval u ^ uval b) mod uval m)).
Proof. exact (bench_modulo_pow_good addr k e). Qed.
Print Assumptions C73_modulo_pow.

(** Ten bits: the generator chooses among the 512 numbers from 512. *)
Example C73_hypotheses : let A := arch16 in (1 <= 1 /\ 2 * 10 ^ 1 < MAX_BIT_LEN) /\ 10 ^ 1 * (10 ^ 1 / wbits + 1) <= MAX_LEN.
Proof. vm_compute. repeat split; discriminate. Qed.

Definition answers {T} (m : rand (option T)) (cs : list Z) (x : T) : Prop := runs m cs (Ok (Some x)).

Example C73_case : let A := arch16 in
  answers (random_ubig 1 10) [511] (Small 1023) /\
  answers (bench_add 1 1) [88; 0] (Small 600, Small 512, Small 1112) /\
  answers (bench_sub 1 1) [88; 0] (Small 600, Small 512, Small 600) /\
  answers (bench_gcd 1 1) [88; 0] (Small 600, Small 512, Small 8) /\
  answers (bench_extended_gcd 1 1) [88; 0] (Small 600, Small 512, (Small 8, pos (Small 35), neg (Small 41))).
Proof. cbv zeta. unfold answers. repeat split; apply reply_runs; vm_compute; reflexivity. Qed.

Example C73_product : let A := arch16 in exists c, answers (bench_mul 1 1) [88; 0] (Small 600, Small 512, c) /\ uval c = 600 * 512.
Proof. cbv zeta. eexists. split; [apply reply_runs; vm_compute; reflexivity|reflexivity]. Qed.

(** Twenty bits take two random words. *)
Example C73_quotient : let A := arch16 in exists a, answers (bench_div 1 1) [0; 5; 88] (a, Small 600, (Small 873, Small 493)) /\ uval a = 2 ^ 19 + 5.
Proof. cbv zeta. eexists. split; [apply reply_runs; vm_compute; reflexivity|reflexivity]. Qed.

(** With the largest number of ten bits, the capacity is used up. *)
Example C73_text : let A := arch16 in
  answers (bench_to_hex false 1 1) [511] (Small 1023, txt "3ff", 3) /\
  answers (bench_to_dec false 1 1) [511] (Small 1023, txt "1023", 4) /\
  answers (bench_from_text 16 false 1 1) [511] (Small 1023, POk (Small 1023)) /\
  answers (bench_from_text 10 false 1 1) [511] (Small 1023, POk (Small 1023)) /\
  bench_pow 1 = Ok (Small 59049).
Proof. cbv zeta. unfold answers. split; [|split; [|split; [|split]]]; [apply reply_runs..|]; vm_compute; reflexivity. Qed.

Example C73_modular : let A := arch16 in
  (exists c, answers (bench_modulo_mul 5 1 1) [88; 89; 188] (Small 600, Small 601, Small 700, c) /\ residue c = Ok (Small 100)) /\
  (exists c, answers (bench_modulo_pow 5 1 1) [88; 90; 0] (Small 600, Small 602, Small 512, c) /\ residue c = Ok (Small (2 ^ 512 mod 600))).
Proof.
  cbv zeta. unfold answers. split; eexists; (split; [apply reply_runs; vm_compute; reflexivity|vm_compute; reflexivity]).
Qed.

(** The sizes that do not fit. *)
Example C73_16_bit : let A := arch16 in bench_add 1 5 = Fail Internal.
Proof. reflexivity. Qed.
