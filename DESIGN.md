# Formal model of ibig (UBig / IBig / ModuloRing) in Rocq

Source: `/repo` (tczajka/ibig-rs, version 0.3.6 + unreleased 0.4.0 changes). The
code is read as text only; nothing is built or executed. All Coq files are in
`rocq/theories`, logical path `Verif`.

## Layout

* `Model/*.v`   – definitions only: one Gallina function per Rust function, each
  with a comment citing file and lines.
* `Spec/*.v`    – the small, independent vocabulary in which properties are
  stated (integer denotation of values, "returns", "panics with").
* `Proofs/*.v`  – lemmas.
* `Props/*.v`   – one theorem (or a few) per property `Cnn`, with concrete
  examples showing the hypotheses can be met, and `Print Assumptions`.
* `Tests/*.v`   – the crate's own tests (`/repo/tests`, `#[cfg(test)]` in `/repo/src`, and the documentation examples)
  replayed on the model, on 16-, 32- and 64-bit words. They are evidence for the one thing
  that cannot be proved here, that the model follows the code; no theorem depends on them.

## Modelling conventions

* A machine word is a `Z` in `[0, 2^W)`. `W` (word bits) and `U` (usize bits) are
  fields of the `Arch` record; `ArchOk` says each is 16, 32 or 64 (and that
  `vec_cap`, the capacity `Vec` gives, is at least what was asked for), so every
  theorem covers every build configuration selected by `src/arch/mod.rs`
  (including `force_bits`).
* A slice of words is a `list Z` (little endian), lengths are `nat`.
* `&mut` arguments become extra results. By-value and by-reference operand forms
  are separate functions when the Rust code is separate.
* Every function that can panic returns `res A := Ok a | Panic p`. Explicit
  panics have their own reason (`NumberTooLarge`, `NegativeUBig`,
  `DivideByZero`, ...). `assert!`, `debug_assert!`, slice-index errors, failed
  `unwrap`s, scratch-memory exhaustion and overflow of checked arithmetic (which
  panics in debug builds and wraps in release builds) all become
  `Panic Internal`; a theorem that a function returns `Ok v` therefore shows that
  both debug and release builds return `v`. Wrapping operations
  (`overflowing_add`, `wrapping_sub`, `as` casts) are modelled with `mod 2^W`.
* Heap buffers carry their capacity: `Buffer = {words; cap}`, and `push` fails
  with `Panic Internal` beyond capacity, as in the code.
* Scratch memory (`memory.rs`): the arithmetic uses a number of available words,
  and allocating more than available is `Panic Internal`. `Model/RawMemory.v` models
  the code itself, with addresses, alignment and bytes; C50 proves that counting
  words is faithful to it, and C51 that the announced layouts have the counted size.
  Multiplication, division, rings and powers compute these layouts (`new_memory`) and
  panic with `OutOfMemory` when a layout exceeds `isize::MAX` bytes.
* Loops become structural recursion, or recursion on explicit fuel with an
  out-of-fuel `Panic Internal` excluded by the theorems.

## Trusted base

* The Coq kernel (8.16.1).
* `core::alloc::Layout` and the contract of the global allocator (`block_ok`), as
  documented; `Layout` of the pinned toolchain limits sizes to `isize::MAX`.
* The correspondence of the hand-written model with the Rust source. (`Tests/*.v` checks
  it on the inputs of the crate's tests; all of them pass.)
* Assumptions: `Print Assumptions` reports "Closed under the global context" for
  every theorem in `Props`; no axiom is used, from the standard library or elsewhere.
  `coqchk` also lists the module parameters `Coq.ssr.ssrunder.Under_rel.*`, because it
  reports every constant without a body in the libraries that get loaded; no theorem
  depends on them.
* Rust `core`/`alloc` primitives are modelled by their documented meaning: integer
  operators and intrinsics, slice/iterator adapters (`chunks`, `rchunks`,
  `split_at`, `copy_from_slice`), `Vec` (`with_capacity(n)` gives some
  capacity of at least `n` that depends only on `n`: the field `vec_cap` of `Arch`), `as f32/f64` casts of one primitive integer, `fmt::Formatter`
  flags, `rand::Rng` (as an arbitrary stream of choices), serde's `SeqAccess` (as
  a list plus optional size hint).
* Primitive integers are formatted by `core::fmt` (used by one-word rings);
  `Model/ModularFmt.v` models that from its documentation.
* The x86 intrinsics `_addcarry`/`_subborrow` are modelled by their documented
  meaning; that this agrees with the portable code is proved (C48).
* Slices are shorter than `isize::MAX` bytes (`slice_size`), as Rust guarantees.
* A text sink (`fmt::Write`) never reports an error in `Model/Fmt.v`; `Model/Sink.v` has the
  same functions for sinks that do, and C55 proves that they agree.
* The byte order of the target is a parameter of the formatting theorems.
* Two live rings at the same address are the same ring.
* `rand`: a generator is an arbitrary tree of choices; serde: a deserializer is a
  list of elements with an optional size hint in `Model/Serde.v`, and its own errors
  are in `Model/SerdeErr.v` (C56).

## Not modelled

* Failure of the allocator for a legal request inside the arithmetic. (`Model/RawMemory.v` has a failing allocator; in the
  arithmetic only requests that are too large for the address space fail.)
* Lifetimes: that a slice is not used after the scope of its chunk is left to the
  borrow checker. (The `unsafe` code is: `memory.rs`, C50; the intrinsics of
  `arch/x86*`, C48; `from_utf8_unchecked` in `fmt/digit_writer.rs`, C55.)
* Performance, except the number of steps of multiplication, division, powers (C60), parsing (C61), formatting (C62), sums, differences, shifts and greatest common divisors (C63), modular arithmetic (C64, C65), bit operations and bytes (C69), comparisons,
  conversions to primitive types and serialization (C71): a routine on
  slices is charged for each word that it can visit, not for machine cycles, allocation or
  cache misses.
* The compiler's tokenization of macro arguments: the `ubig!`/`ibig!` model starts
  from the text of an identifier or literal and the `u128` value of a literal.
* Unwinding: `Model/Unwind.v` says what `&mut self` holds after a panic; that values on the
  stack are dropped, and that failed allocations of legal sizes abort, is Rust's business.
* The `Debug` texts of the error types, which are derived, the texts of failed `assert!`s and what
  the panic handler prints around a message (the messages themselves are C74).

## Method per property

| id | modelled | how proved |
|----|----------|-----------|
| C01–C03 | `add.rs`, `add_ops.rs`, `arch/generic/add.rs`, `buffer.rs`, `ubig.rs` | value of word lists `val`; carry-chain lemmas by induction; API cases |
| C04, C05 | `mul/*.rs` (not ntt), `mul_ops.rs`, `memory.rs` as word budget | contract `c' + carry*B^n = c ± a*b` proved by strong induction on length for all three algorithms together with the scratch bound |
| C06, C07 | `div/*.rs`, `div_ops.rs`, `shift.rs` | Knuth D quotient-digit lemma, divide-and-conquer by induction, scratch bound |
| C08 | `fast_divide.rs` | Granlund–Montgomery and Möller–Granlund theorems over Z |
| C09, C10 | IBig part of `div_ops.rs` | from C06 by sign cases, against `Z.quot/Z.rem` and Euclidean characterisation |
| C11, C12 | `ubig.rs`, `ibig.rs`, `cmp.rs` | uniqueness of canonical base-B digits |
| C13, C14 | `shift.rs`, `shift_ops.rs` | val lemmas; floor division |
| C15, C16, C17, C18, C19 | `bits.rs` | `Z.testbit` extensionality; C18 is refuted for one-word numbers and n >= W (`mem::take` without restoring) |
| C20, C21 | `convert.rs`, `primitive.rs` | digit lists base 256; range checks |
| C22 | `convert.rs` float part | rounding stated on integers (nearest, ties to even) without a reals library |
| C23, C24 | `gcd.rs` | loop invariants with a decreasing measure; two runs on two platforms related step by step (`Proofs/GcdPortable.v`) |
| C25 | `pow.rs` | square-and-multiply invariant |
| C26, C27 | `parse/*.rs`, `radix.rs` | Horner value of digit strings |
| C28–C30, C44 | `fmt/*.rs`, `arch/generic/digits.rs` | canonical numerals; width lemma |
| C31–C35 | `modular/*.rs` | residues; ring identity as an abstract address |
| C36 | `serde.rs` | regrouping of digits base 2^W into base 2^64 |
| C37 | `rand.rs` | RNG as a stream of choices; counting argument for uniformity |
| C38 | primitive forms in all `*_ops.rs` | from the UBig/IBig theorems + range lemmas |
| C39, C40 | `buffer.rs` capacity, `Clone` | invariant of every operation |
| C41, C42 | `sign.rs`, `num_traits.rs` | direct; `abs_sub` is refuted (returns the absolute difference) |
| C43 | all modelled operations | induction over programs |
| C46 | `modular/fmt.rs` | from C28/C30, and a proof for the core library's digits |
| C47 | `macros.rs` | from C26/C27 |
| C48 | `arch/*/add.rs` | direct |
| C49 | `mul/ntt.rs`, `arch/*/ntt.rs` | exact order from one power equal to -1; primality because every divisor exceeds the order |
| C50, C51 | `memory.rs`, `memory_requirement*` in `mul`, `div`, `modular` | bytes at addresses as a function; least aligned address; sizes bounded by `MAX_LEN` |
| C52 | all modelled operations | two ideal machines run side by side (`Proofs/PortableProofs.v`) |
| C53 | the whole public interface (`Model/Client.v`) | forward simulation into a nondeterministic abstract machine (`Spec/Abstract.v`), from the theorems of the other properties; uniqueness of numerals, canonical digits, rounded floats and modular quotients (`Proofs/ClientProofs.v`) |
| C54 | the whole public interface | the abstract machines of two platforms agree (`Proofs/PortableAppProofs.v`) |
| C55 | formatting with failing sinks (`Model/Sink.v`) | simulation of the failing writers by the infallible ones; the calls do not depend on the sink (`Proofs/SinkProofs.v`) |
| C56 | serialization with errors (`Model/SerdeErr.v`) | the calls do not depend on the serializer; induction on the elements offered (`Proofs/SerdeErrProofs.v`) |
| C57 | the whole public interface | the abstract machine of a platform follows that of a much smaller one (`Proofs/Roomier.v`) |
| C58 | operations in place, and what a panic leaves behind (`Model/Unwind.v`) | each `&mut self` function stores where the code does; compared with the function that returns the new value, then simulation as in C53 (`Proofs/CaughtProofs.v`) |
| C59 | recursion depth (`Model/Mul.v`, `Model/Div.v`, `Model/Parse.v`, `Model/Fmt.v`) | the fuel of the recursive functions is the number of calls that may be nested, shared by multiplication and division; fuel logarithmic in the length gives the same result as fuel linear in the length; the remainders of the chunked multiplication shrink as in Euclid's algorithm, two calls halve the shorter operand |
| C60 | cost (`Model/Cost.v`, `Model/CostDiv.v`, `Model/CostOps.v`) | the routines again in a counting monad; erasing the counter gives the original; a Hoare logic for counters (`costs`), recurrences solved at the lengths 64*3^k+2, where Toom-3 splits exactly, and exponents 0.47 and 1.59 compared through hundredth powers |
| C61 | cost of parsing (`Model/CostParse.v`) | the same monad; each level of the divide and conquer costs a product for each two chunks, so the levels form a geometric series in `Proofs/CostRates.v` (`below x k b` is x <= k*b^0.47); the lengths of intermediate results come from the operators' lengths, not from their values |
| C62 | cost of formatting (`Model/CostFmt.v`) | the same monad; digits waiting in the buffer of `DigitWriter` are a potential that pays for the next flush (`writes`); the lengths of powers, quotients and remainders come from the values proved for C28 (`range^2 >= B`), so the levels of `write_big_chunk` form the geometric series of C61 |
| C63 | cost of sums, differences, shifts and greatest common divisors (`Model/CostGcd.v`) | the same monad; the binary gcd is bounded by the length of the shorter number times the fuel, which C23 shows to be enough; in `extended_gcd` the bits of the two numbers are a potential (`spends`): each halving pays for itself, each subtraction is paid for by the halving after it, and the invariant of C24 keeps the coefficients as short as the operands |
| C64 | cost of modular sums, products, conversions and powers (`Model/CostModular.v`) | the same monad; the estimate of the window length is convex (`estimate_convex`), so the first minimum found by `choose_pow_window_len` is the global one; the power loop is counted window by window, zeros between windows costing one square each |
| C65 | cost of residues, inverses, quotients and powers with negative exponents (`Model/CostInverse.v`) | the same monad; the bound of C63 on `extended_gcd` plus one remainder, whose operands are no longer than the modulus by the coefficient bounds of C24 |
| C66 | `examples/factorial.rs` (`Model/Tools.v`) | induction on the length of the range; the text from C27 |
| C67 | `dev-tools/src/bin/ntt_primes.rs` (`Model/Tools.v`), with the random numbers as choices (C35) and the unbounded loops on fuel: running out is the result `None` | existence of primitive roots from scratch (`Proofs/PrimitiveRoots.v`: Lagrange's bound on roots, Fermat, orders of products); a generator proves a prime and a failed Miller-Rabin test refutes one; the invariant of the search is "all primes for this order, and fewer than three for the next" (`found`); the constants by computation with a division-free power modulo m * 2^o + 1 (`fast_power_spec`) |
| C68 | limits, capacities and every operation on buffers (`Model/Buffer.v`) | nine platforms by computation; amortized growth with the distance from the length at the last reallocation as potential |
| C69 | cost of bit operations and conversions to and from bytes (`Model/CostBits.v`) | the same monad; the lengths of intermediate results from their values |
| C70 | size of the scratch memory (the layouts of `Model/RawMemory.v`) | the formulas of C51, a logarithm against its argument, and the best window of C64 |
| C71 | cost of comparisons, conversions to primitive integers and floats, serialization (`Model/CostConvert.v`) | the same monad; the bit length bounds the words of numbers that are not infinity |
| C72 | random words drawn by sampling (`Model/Rand.v`) | expectation over the tree of choices: one attempt draws at most the words of the range, and at most half of the attempts fail |
| C73 | `benches/benchmarks.rs` (`Model/Bench.v`): for one size, the inputs drawn and one call of the measured closure; criterion's measurements left out | composition of the theorems on the operations; a text of base at least 2^k has at most bits/k + 1 digits |
| C74 | `error.rs` and the `panic!` calls of src (`Model/Errors.v`): the texts; numbers in them are written by the core library (`core_digits`). `Panic InvalidRadix` of the other models carries no radix: that the call quotes its own argument is read off `radix.rs:24-28` | C26 for parsing, C68 for the maximum, uniqueness of decimal digits |
| C45 | all operand forms | from the individual exactness theorems |

## Where the code deviates from its stated behaviour

Each is a theorem about the model, with the witness; the properties concerned are
`partial` in `MANIFEST.json` and proved for the remaining inputs.

1. `UBig::clear_bit(n)` returns 0 for a one-word number when `n >= WORD_BITS`
   (`C18_clear_bit_refuted`).
2. `Signed::abs_sub` returns the absolute difference (`C42_abs_sub_refuted`).
3. `extended_gcd(2, 2^MAX_BIT_LEN - 1)` and modular inverses built on it panic
   (C24, C33, C34).
4. Reducing a number close to the largest one modulo a modulus with leading zero bits
   panics with "number too large" (`C31_from_refuted`).
5. Deserializing an over-long sequence whose excess is zeros panics
   (`C36_padded_refuted`).
6. `{:x?}` of a modular value prints hexadecimal in one-word rings and decimal in
   larger ones (`C46_debug_hex`, `C46_debug_is_display_refuted`).
7. On 32-bit machines every multiplication in a ring with a modulus of `MAX_LEN` words
   panics with "out of memory", and so do division and exponentiation
   (`C51_ring_mul_refuted`, `C32_mul_refuted`, `C33_pow_refuted`).
8. Parsing an over-long text that is no numeral panics instead of returning an error
   (`C26_overlong_invalid_refuted`).
9. Deserialization trusts the size hint: a wrong hint panics, and a huge one panics with
   "number too large" before any element is read (C56).
