{"id": "C01", "title": "UBig addition is exact", "statement": "Adding two UBig values (by value or by reference, and with +=) returns exactly the mathematical sum, in canonical form, and leaves by-reference operands unchanged; the only way it does not return is the 'number too large' panic, which happens exactly when the sum does not fit in UBig::MAX_BIT_LEN bits.", "quantifier": "all pairs of UBig values, all four by-value/by-reference combinations and the assign forms, every word size the crate can be built with (16, 32, 64 bits) and every pointer width (16, 32, 64 bits)", "why_tests_cant": "Carry chains depend on every word of both operands and on relative lengths and spare capacity; finite tests cannot cover every length, carry pattern and capacity.", "anchors": ["src/add_ops.rs: impl Add<UBig> for UBig, add_word, add_large_word, add_large", "src/add.rs: add_in_place, add_same_len_in_place, add_one_in_place", "src/arch/generic/add.rs: add_with_carry"]}
{"id": "C02", "title": "UBig subtraction is exact or panics", "statement": "Subtracting UBig values (all by-value/by-reference forms and -=) returns exactly a-b when a>=b and panics (instead of wrapping) exactly when a<b.", "quantifier": "all pairs of UBig values and all operand forms, every word size the crate can be built with (16, 32, 64 bits) and every pointer width (16, 32, 64 bits)", "why_tests_cant": "The panic condition is decided by borrow propagation over the full length of both operands, which tests sample only sparsely.", "anchors": ["src/add_ops.rs: impl Sub<UBig> for UBig, sub_large, sub_large_word, sub_large_ref_val, panic_negative", "src/add.rs: sub_in_place, sub_same_len_in_place_swap"]}
{"id": "C03", "title": "IBig addition and subtraction are exact", "statement": "IBig +, - (all operand forms) return the exact signed sum/difference for all sign combinations, never produce a negative zero and never panic unless the magnitude of the result exceeds MAX_BIT_LEN bits.", "quantifier": "all pairs of IBig values, all sign combinations, all operand forms, every word size the crate can be built with (16, 32, 64 bits) and every pointer width (16, 32, 64 bits)", "why_tests_cant": "Sign of the result is decided by a length-dependent comparison with leading-zero skipping; there are unboundedly many length/borrow combinations.", "anchors": ["src/add_ops.rs: impl Add<IBig> for IBig, sub_ubig_val_val, sub_ubig_ref_ref, sub_large_ibig...", "src/add.rs: sub_in_place_with_sign"]}
{"id": "C04", "title": "Multiplication is exact for every operand size", "statement": "UBig * UBig and IBig * IBig return the exact product in canonical form regardless of which multiplication algorithm (schoolbook, Karatsuba, Toom-3, and the splitting of unbalanced operands) is selected; panics only with 'number too large', exactly when the product does not fit in MAX_BIT_LEN bits.", "quantifier": "all pairs of operands of all lengths (so every recursion pattern of the three algorithms), all operand forms, every word size the crate can be built with (16, 32, 64 bits) and every pointer width (16, 32, 64 bits)", "why_tests_cant": "The recursion shape depends on both lengths and intermediate signs/carries depend on the data; rare carry/sign paths in Karatsuba/Toom-3 have tiny probability under random tests.", "anchors": ["src/mul_ops.rs: UBig::mul_large", "src/mul/mod.rs: add_signed_mul, add_signed_mul_same_len", "src/mul/simple.rs", "src/mul/karatsuba.rs", "src/mul/toom_3.rs", "src/mul/helpers.rs"]}
{"id": "C05", "title": "Multiplication scratch memory is always sufficient", "statement": "Multiplication never hits the internal 'not enough memory allocated' panic nor any internal assertion or arithmetic-overflow check: the scratch space computed up front from the shorter operand is enough for every recursive step.", "quantifier": "all pairs of operand lengths and all operand contents", "why_tests_cant": "The bound is an inequality over all lengths involving ceilings and logarithms; testing some lengths says nothing about the others.", "anchors": ["src/mul/mod.rs: memory_requirement_up_to, memory_requirement_exact", "src/mul/karatsuba.rs: memory_requirement_up_to", "src/mul/toom_3.rs: memory_requirement_up_to", "src/memory.rs: Memory::allocate_slice_initialize"]}
{"id": "C06", "title": "UBig division and remainder are exact", "statement": "For UBig a and b, a/b, a%b, div_rem and the Euclidean variants return the unique q and r with a = q*b + r and 0 <= r < b, for all operand forms; they panic 'divide by 0' exactly when b = 0 and never otherwise.", "quantifier": "all pairs of UBig values of all lengths (single-word divisors, schoolbook and divide-and-conquer ranges), all operand forms, every word size the crate can be built with (16, 32, 64 bits) and every pointer width (16, 32, 64 bits)", "why_tests_cant": "Quotient-digit estimation corrections (add-back) occur with probability around 2/B per step, so random tests practically never exercise them; and the recursion depends on both lengths.", "anchors": ["src/div_ops.rs: div_rem_in_lhs, div_large, rem_large, div_rem_large, div_large_word", "src/div/mod.rs: div_rem_in_place, div_by_word_in_place, rem_by_word", "src/div/simple.rs", "src/div/divide_conquer.rs"]}
{"id": "C07", "title": "Division scratch memory is always sufficient", "statement": "Division never runs out of the scratch memory it allocated up front and never trips an internal assertion.", "quantifier": "all pairs of operand lengths with dividend at least as long as divisor and all contents", "why_tests_cant": "The bound must hold for every recursive sub-problem of every pair of lengths.", "anchors": ["src/div/mod.rs: memory_requirement_exact", "src/div/divide_conquer.rs: memory_requirement_exact", "src/div_ops.rs: div_rem_in_lhs"]}
{"id": "C08", "title": "Reciprocal-based word division equals true division", "statement": "Every division by a precomputed reciprocal (the multiplicative division by a small constant used in radix conversion, and the 2-word by 1-word division used in long division and modular arithmetic) returns exactly the floor quotient and remainder for every divisor and every dividend in its domain.", "quantifier": "all divisors (every non-trivial word; every normalized word) and all dividends, every word size the crate can be built with (16, 32, 64 bits) and every pointer width (16, 32, 64 bits)", "why_tests_cant": "The domain is 2^192 input combinations at 64 bits; off-by-one corrections matter only at isolated points.", "anchors": ["src/fast_divide.rs: FastDivideSmall::new, FastDivideSmall::div_rem, FastDivideNormalized::new, div_rem_word, div_rem"]}
{"id": "C09", "title": "IBig division truncates toward zero", "statement": "IBig /, %, div_rem return q = trunc(a/b) and r = a - q*b with r having the sign of a (or zero); panics exactly when b = 0.", "quantifier": "all pairs of IBig values and operand forms", "why_tests_cant": "Must hold for all sign/size combinations including quotients and remainders that vanish.", "anchors": ["src/div_ops.rs: impl Div<IBig> for IBig, impl Rem<IBig> for IBig, impl DivRem<IBig> for IBig"]}
{"id": "C10", "title": "IBig Euclidean division", "statement": "IBig div_euclid, rem_euclid, div_rem_euclid return q and r with a = q*b + r and 0 <= r < |b|, consistently with one another; panics exactly when b = 0.", "quantifier": "all pairs of IBig values and operand forms", "why_tests_cant": "All sign combinations, with exact and inexact division, at all sizes.", "anchors": ["src/div_ops.rs: impl DivEuclid<IBig> for IBig, impl RemEuclid<IBig> for IBig, impl DivRemEuclid<IBig> for IBig"]}
{"id": "C11", "title": "Canonical representation: equality and hashing are numeric", "statement": "Two UBig (or IBig) values compare equal exactly when they denote the same integer, and equal values feed identical data to a Hasher; there is no second representation of any integer (no leading zero words, no negative zero), whatever history of operations produced the values.", "quantifier": "all values reachable by any history of public operations", "why_tests_cant": "Reachability ranges over arbitrary operation histories; a single operation that forgets to normalize breaks equality only for particular values.", "anchors": ["src/ubig.rs: Repr, From<Buffer> for UBig", "src/ibig.rs: IBig::from_sign_magnitude", "src/buffer.rs: pop_leading_zeros"]}
{"id": "C12", "title": "Ordering is the numeric order", "statement": "cmp/partial_cmp on UBig and IBig agree with the order on integers (hence are a total order consistent with ==).", "quantifier": "all pairs of UBig and all pairs of IBig values", "why_tests_cant": "Word-wise comparison must be right for all lengths and positions of first difference and all signs.", "anchors": ["src/cmp.rs: impl Ord for UBig, impl Ord for IBig, cmp_same_len"]}
{"id": "C13", "title": "Left shift multiplies by a power of two", "statement": "x << n equals x * 2^n for UBig and IBig (by value, by reference and <<=), whatever spare capacity the operand holds; panics only when the result exceeds MAX_BIT_LEN bits; shifting zero never panics.", "quantifier": "all values x, all usize shift amounts n, all buffer capacities, every word size the crate can be built with (16, 32, 64 bits) and every pointer width (16, 32, 64 bits)", "why_tests_cant": "In-place and reallocating paths depend on capacity, shift amount and content; n ranges over all of usize.", "anchors": ["src/shift_ops.rs: shl_word, shl_word_slow, shl_large, shl_ref_large", "src/shift.rs: shl_in_place"]}
{"id": "C14", "title": "Right shift is floor division by a power of two", "statement": "x >> n equals floor(x / 2^n) for UBig and IBig (rounding toward negative infinity for negative numbers), for all operand forms; it never panics.", "quantifier": "all values x and all usize shift amounts n", "why_tests_cant": "Rounding of negative numbers depends on all low bits; n ranges over all of usize.", "anchors": ["src/shift_ops.rs: shr_word, shr_large, shr_large_ref, impl Shr<usize> for IBig", "src/shift.rs: shr_in_place", "src/bits.rs: are_low_bits_nonzero"]}
{"id": "C15", "title": "UBig bitwise operations", "statement": "&, |, ^ and and_not on UBig act bit by bit: bit i of the result is the Boolean function of the i-th bits of the operands, for every i, for all operand forms.", "quantifier": "all pairs of UBig values, all bit positions, all operand forms", "why_tests_cant": "Differing lengths and normalization after cancellation give unboundedly many cases.", "anchors": ["src/bits.rs: impl BitAnd<UBig> for UBig, impl BitOr<UBig> for UBig, impl BitXor<UBig> for UBig, impl AndNot<UBig> for UBig"]}
{"id": "C16", "title": "IBig bitwise operations are infinite two's complement", "statement": "!, &, |, ^ and and_not on IBig equal the operations on infinite two's-complement representations: bit i of the result is the Boolean function of bits i of the operands for every i.", "quantifier": "all pairs of IBig values of all signs and lengths, all bit positions, all operand forms", "why_tests_cant": "Implementation is by sign-magnitude case analysis with +1/-1 corrections; errors show only for certain sign/carry patterns.", "anchors": ["src/bits.rs: impl Not for IBig, impl BitAnd<IBig> for IBig, impl BitOr<IBig> for IBig, impl BitXor<IBig> for IBig, impl AndNot<IBig> for IBig"]}
{"id": "C17", "title": "Single-bit access: bit and set_bit", "statement": "UBig::bit(n) returns bit n of the number (false beyond its length), and set_bit(n) sets bit n and changes no other bit, growing the number when needed; it panics only if the result exceeds MAX_BIT_LEN bits.", "quantifier": "all values, all usize bit positions", "why_tests_cant": "Positions below, at and far above the current length, in the inline and the heap representation.", "anchors": ["src/bits.rs: UBig::bit, UBig::set_bit"]}
{"id": "C18", "title": "clear_bit clears exactly one bit", "statement": "UBig::clear_bit(n) clears bit n and changes no other bit; in particular clearing a bit that is already zero leaves the number unchanged.", "quantifier": "all values, all usize bit positions", "why_tests_cant": "The failing inputs depend on the relation between n, the word size and the current representation; a test suite that only clears existing bits never sees it.", "anchors": ["src/bits.rs: UBig::clear_bit"]}
{"id": "C19", "title": "Bit counting functions", "statement": "trailing_zeros returns the exponent of the largest power of two dividing the number (None for 0, same for negative IBig), bit_len returns the least k with x < 2^k, is_power_of_two and next_power_of_two agree with their definitions (least power of two >= x).", "quantifier": "all UBig/IBig values", "why_tests_cant": "Long runs of zero words and carries out of the top word need values near every power of two at every length.", "anchors": ["src/bits.rs: UBig::trailing_zeros, UBig::bit_len, UBig::is_power_of_two, UBig::next_power_of_two, IBig::trailing_zeros"]}
{"id": "C20", "title": "Byte conversions round-trip", "statement": "from_le_bytes/from_be_bytes return the number denoted by the byte string (any length, leading zero bytes allowed), to_le_bytes/to_be_bytes return the unique shortest byte string (empty for 0), and the compositions are identities.", "quantifier": "all byte strings and all UBig values", "why_tests_cant": "Byte strings of every length relative to the word size, arbitrary trailing/leading zero bytes.", "anchors": ["src/convert.rs: UBig::from_le_bytes, UBig::from_be_bytes, UBig::to_le_bytes, UBig::to_be_bytes", "src/primitive.rs: word_from_le_bytes_partial"]}
{"id": "C21", "title": "Conversions with primitive integers", "statement": "From<primitive> preserves the value, and TryFrom to u8..u128/usize/i8..i128/isize succeeds with the same value exactly when it is in the range of the target type and errs otherwise; UBig/IBig conversions likewise.", "quantifier": "all primitive values and all UBig/IBig values, all primitive types, every word size the crate can be built with (16, 32, 64 bits) and every pointer width (16, 32, 64 bits)", "why_tests_cant": "Boundaries interact with word size (types narrower than, equal to, and wider than a word) and with i*::MIN.", "anchors": ["src/convert.rs: from_unsigned, try_to_unsigned, unsigned_from_words, try_to_signed, TryFrom<IBig> for UBig", "src/primitive.rs: to_sign_magnitude, try_from_sign_magnitude"]}
{"id": "C22", "title": "Float conversion rounds to nearest even", "statement": "to_f32/to_f64 return the IEEE-754 value nearest to the integer, ties to even, and infinity exactly when the correctly rounded value overflows; sign preserved for IBig.", "quantifier": "all UBig and IBig values", "why_tests_cant": "Ties and near-ties depend on all the low-order words (sticky bit), overflow on exact boundary.", "anchors": ["src/convert.rs: UBig::to_f32, UBig::to_f32_slow, UBig::to_f64, UBig::to_f64_slow"]}
{"id": "C23", "title": "GCD is the greatest common divisor", "statement": "gcd(a,b) divides both and is divisible by every common divisor, for UBig and IBig (non-negative result); it panics exactly when both are zero, and always terminates.", "quantifier": "all pairs of values", "why_tests_cant": "Termination and correctness of a data-dependent binary loop for all inputs.", "anchors": ["src/gcd.rs: UBig::gcd, IBig::gcd"]}
{"id": "C24", "title": "Extended GCD returns Bezout coefficients", "statement": "extended_gcd(a,b) returns (g,x,y) with g = gcd(a,b) and a*x + b*y = g for all inputs except (0,0) (which panics); no internal subtraction underflows and it terminates. The coefficients depend only on the two numbers, not on the platform or on buffer capacities.", "quantifier": "all pairs of UBig values and all pairs of IBig values", "why_tests_cant": "Loop invariant over unboundedly many iterations; internal UBig subtraction would panic if an intermediate inequality failed.", "anchors": ["src/gcd.rs: UBig::extended_gcd, IBig::extended_gcd"]}
{"id": "C25", "title": "Exponentiation is exact", "statement": "x.pow(n) equals x^n for UBig and IBig with x^0 = 1 (also 0^0 = 1), panicking only if the result exceeds MAX_BIT_LEN bits.", "quantifier": "all bases and all usize exponents", "why_tests_cant": "Square-and-multiply over all exponent bit patterns; shortcuts for 0, 1, 2, -1.", "anchors": ["src/pow.rs: UBig::pow, IBig::pow"]}
{"id": "C26", "title": "Parsing accepts exactly numerals and returns their value", "statement": "from_str_radix succeeds exactly on an optional sign followed by a non-empty string of digits valid in the radix (either letter case), returning the denoted number; the empty numeral is NoDigits, anything else is InvalidDigit (only a text with more digits than any representable number may be reported as too large instead); radix outside 2..=36 panics. Holds for strings of every length, across the single-word, chunked and divide-and-conquer parsers.", "quantifier": "all byte strings (of any length), all radixes 2..=36, every word size the crate can be built with (16, 32, 64 bits) and every pointer width (16, 32, 64 bits)", "why_tests_cant": "Group splitting depends on length modulo digits-per-word and the recursive splitting on length; errors anywhere in the string must be reported.", "anchors": ["src/parse/mod.rs: from_str_radix, from_str_radix_no_sign", "src/parse/power_two.rs", "src/parse/non_power_two.rs", "src/radix.rs: digit_from_utf8_byte, RadixInfo::for_radix"]}
{"id": "C27", "title": "Radix prefixes", "statement": "from_str_with_radix_prefix parses [sign][0b|0o|0x]digits with the radix chosen by the prefix and decimal otherwise, with the same accept/reject and value semantics as from_str_radix.", "quantifier": "all byte strings", "why_tests_cant": "Interaction of sign, prefix and leading zeros over all strings.", "anchors": ["src/parse/mod.rs: from_str_with_radix_prefix, from_str_with_radix_prefix_no_sign"]}
{"id": "C28", "title": "Formatting prints the canonical numeral", "statement": "Formatting a number in any radix prints exactly its canonical positional numeral (no leading zeros, '0' for zero, '-' for negatives, requested letter case), for numbers of every size.", "quantifier": "all values and all radixes 2..=36, every word size the crate can be built with (16, 32, 64 bits) and every pointer width (16, 32, 64 bits)", "why_tests_cant": "Chunk boundaries need zero-padding of inner groups; the divide-and-conquer path depends on size relative to repeated squares of radix powers.", "anchors": ["src/fmt/mod.rs: InRadixFull::fmt", "src/fmt/power_two.rs", "src/fmt/non_power_two.rs", "src/fmt/digit_writer.rs", "src/arch/generic/digits.rs: digit_chunk_raw_to_ascii"]}
{"id": "C29", "title": "Parse and format round-trip", "statement": "Parsing the formatted text of a number in the same radix returns the number, for every number and radix and both letter cases.", "quantifier": "all UBig/IBig values, all radixes 2..=36", "why_tests_cant": "Composition of two size-dependent algorithms for unboundedly many sizes.", "anchors": ["src/fmt/mod.rs: UBig::in_radix, IBig::in_radix", "src/parse/mod.rs: UBig::from_str_radix, IBig::from_str_radix"]}
{"id": "C30", "title": "Formatting width, sign, prefix and padding", "statement": "With a minimum width, the output has exactly max(width, natural length) characters; zero padding goes between sign/prefix and digits, other fill goes outside according to the alignment; + prints a plus sign for non-negative numbers; # prints 0b/0o/0x.", "quantifier": "all values, all format flags, all widths, fills and alignments", "why_tests_cant": "The width announced by each preparer must equal the number of digits actually written, for all sizes.", "anchors": ["src/fmt/mod.rs: InRadixFull::format_prepared", "src/fmt/power_two.rs: PreparedWord::width, PreparedLarge::width", "src/fmt/non_power_two.rs: width"]}
{"id": "C31", "title": "Modular values are residues", "statement": "For a ring with modulus n > 0, ring.from(x) has residue x mod n in 0..n for every (also negative) integer, ring.modulus() = n, and creating a ring with n = 0 panics. The validity check of the debug assertions accepts exactly the representations of elements.", "quantifier": "all moduli and all integers x", "why_tests_cant": "Normalization shift and reciprocal depend on the modulus; x of any length.", "anchors": ["src/modular/modulo_ring.rs: ModuloRing::new", "src/modular/convert.rs: from_word, from_large, ModuloLarge::from_ubig, residue, modulus", "src/modular/modulo.rs:90-94, src/modular/modulo_ring.rs:130-134: is_valid"]}
{"id": "C32", "title": "Modular ring operations", "statement": "Modular +, -, * and unary - return the residue of the corresponding integer operation, and == holds exactly when residues are equal, for values of the same ring.", "quantifier": "all moduli (one word and larger), all pairs of residues, all operand forms", "why_tests_cant": "Conditional subtraction/overflow handling for all moduli near and far from word boundaries.", "anchors": ["src/modular/add.rs", "src/modular/mul.rs", "src/modular/cmp.rs: impl PartialEq for Modulo"]}
{"id": "C33", "title": "Modular exponentiation", "statement": "x.pow(e) has residue x^e mod n for every modulus and every exponent of any length (including 0), and pow_signed with a negative exponent is the power of the inverse, panicking exactly when the base is not invertible.", "quantifier": "all moduli, all bases, all exponents", "why_tests_cant": "Sliding-window exponentiation depends on all bits of the exponent and a size-dependent window length.", "anchors": ["src/modular/pow.rs: pow_word, pow_helper, pow_nontrivial, choose_pow_window_len, pow_signed"]}
{"id": "C34", "title": "Modular inverse and division", "statement": "inverse() returns Some(y) with x*y = 1 in the ring exactly when gcd(x,n) = 1 and None otherwise; division multiplies by the inverse and panics exactly when there is none.", "quantifier": "all moduli and residues", "why_tests_cant": "Depends on extended gcd for all inputs.", "anchors": ["src/modular/div.rs: Modulo::inverse, impl Div<&Modulo> for &Modulo"]}
{"id": "C35", "title": "Values of different rings never mix", "statement": "Every binary operation or comparison between modular values of two different rings (even with equal moduli) panics instead of returning a value.", "quantifier": "all pairs of rings, all values, all binary operations and operand forms", "why_tests_cant": "Must hold for every operation and every representation combination.", "anchors": ["src/modular/modulo.rs: check_same_ring, panic_different_rings", "src/modular/cmp.rs", "src/modular/add.rs", "src/modular/mul.rs", "src/modular/div.rs"]}
{"id": "C36", "title": "Serialization round-trips and is platform independent", "statement": "Serializing a UBig yields exactly its base-2^64 digits (least significant first, no trailing zero, empty for 0) on every platform, and deserializing such a sequence (with or without a length hint, with or without trailing zeros) yields the number; IBig likewise, with negative zero normalized.", "quantifier": "all values, all u64 sequences, every word size the crate can be built with (16, 32, 64 bits) and every pointer width (16, 32, 64 bits)", "why_tests_cant": "Regrouping of 16/32-bit words into 64-bit units for all lengths, and equality across word sizes.", "anchors": ["src/serde.rs: Serialize for UBig, UBigVisitor::visit_seq, push_word_64, Deserialize for IBig"]}
{"id": "C37", "title": "Random sampling stays in range and is unbiased", "statement": "For every stream of random choices, a sample that is returned lies in [low, high) (or [low, high]); and each value of the range corresponds to equally likely accepted random choices.", "quantifier": "all ranges, all random choice streams", "why_tests_cant": "Statistical tests cannot establish exact uniformity or range membership for every stream.", "anchors": ["src/rand.rs: UBig::uniform, uniform_large, try_fill_uniform, UniformUBig, UniformIBig"]}
{"id": "C38", "title": "Mixed primitive arithmetic agrees with conversion", "statement": "Arithmetic and bitwise operations between UBig/IBig and primitive integers return the same as converting the primitive first (or the exact integer result when it is representable), and the primitive-typed results (remainders, masks) always fit so no internal unwrap fails; UBig results that would be negative panic.", "quantifier": "all values, all primitive values including MIN/MAX, all primitive types and operators", "why_tests_cant": "Types narrower and wider than the word and i*::MIN edge cases, over all big values.", "anchors": ["src/add_ops.rs: add_unsigned, sub_signed...", "src/mul_ops.rs", "src/div_ops.rs: rem_unsigned, div_rem_signed, rem_euclid_primitive", "src/bits.rs: bitand_unsigned..."]}
{"id": "C39", "title": "Buffers stay compact and never overflow capacity", "statement": "After any history of operations every heap-allocated number has capacity between its length and length + length/4 + 4 words (capped), or what Vec gave for a request of length + length/8 + 2 words (never more than the former if Vec gives exactly what it is asked for), and no operation ever hits the 'push beyond capacity' panic.", "quantifier": "all values reachable by any history of public operations", "why_tests_cant": "Capacity evolves with history; the internal push assertion must hold for every reachable capacity.", "anchors": ["src/buffer.rs: allocate, shrink, push, push_may_reallocate, resizing_clone_from, max_compact_capacity"]}
{"id": "C40", "title": "Cloning is faithful", "statement": "clone and clone_from produce a value equal to the source regardless of the previous content and capacity of the destination, and the source is unchanged. The copy does not depend on the history of the source: copies of equal numbers have the same representation and capacity.", "quantifier": "all source/destination pairs (inline and heap) and all capacities", "why_tests_cant": "Reuse of the destination buffer depends on its capacity, i.e. on its history.", "anchors": ["src/ubig.rs: impl Clone for UBig", "src/buffer.rs: resizing_clone_from, clone_from"]}
{"id": "C41", "title": "Sign operations", "statement": "neg, abs, unsigned_abs, signum and Sign multiplication agree with the integer functions; -0 is 0.", "quantifier": "all IBig values", "why_tests_cant": "All sign/zero combinations at all sizes; canonical zero must be preserved.", "anchors": ["src/sign.rs: signum, neg, abs, unsigned_abs", "src/mul_ops.rs: impl Mul<Sign> for Sign"]}
{"id": "C42", "title": "num-traits implementations satisfy their contracts", "statement": "Zero/One/Signed for UBig/IBig meet the trait contracts: zero/one/is_zero, is_positive/is_negative/signum/abs, and abs_sub returns the positive difference max(self - other, 0).", "quantifier": "all values / pairs of values", "why_tests_cant": "The contract quantifies over all pairs, including self < other.", "anchors": ["src/num_traits.rs: impl num_traits::Signed for IBig, abs_sub"]}
{"id": "C43", "title": "Arbitrary operation histories compute the right integers", "statement": "Any sequence of public arithmetic/bitwise/shift/conversion operations on a pool of UBig/IBig variables leaves every variable holding exactly the integer an ideal unbounded-integer machine would hold, or stops with a documented panic.", "quantifier": "all finite programs over the modelled operations and all initial values", "why_tests_cant": "Histories interact through capacities, in-place reuse and normalization; only induction covers all histories.", "anchors": ["src/ubig.rs", "src/ibig.rs", "src/add_ops.rs", "src/mul_ops.rs", "src/div_ops.rs", "src/shift_ops.rs", "src/bits.rs"]}
{"id": "C44", "title": "Digit-to-ASCII conversion", "statement": "The word-parallel conversion of raw digits to ASCII characters maps every digit 0..=35 in every byte lane to the right character in the requested case, independent of neighbouring lanes, and the buffered digit writer outputs every digit once and in order for writes of any size.", "quantifier": "all byte lanes contents 0..=35 (0..=9 without letters), all write sequences", "why_tests_cant": "SWAR arithmetic could leak carries between lanes for particular combinations of neighbours.", "anchors": ["src/arch/generic/digits.rs: digit_chunk_raw_to_ascii", "src/fmt/digit_writer.rs: DigitWriter::write, flush"]}
{"id": "C45", "title": "Operand forms are interchangeable", "statement": "For each arithmetic or bitwise operator the by-value, by-reference and assigning forms return equal numbers and panic on the same operands.", "quantifier": "all operators, all operand pairs, all form combinations", "why_tests_cant": "Each form is separate code with its own fast paths.", "anchors": ["src/add_ops.rs", "src/mul_ops.rs", "src/div_ops.rs", "src/bits.rs", "src/shift_ops.rs", "src/helper_macros.rs"]}
{"id": "C46", "title": "Rings and modular numbers print their modulus and residue", "statement": "For every formatting trait and every option, a ring prints as \"mod \" followed by its modulus, and an element as its residue, \" (mod \", the modulus and \")\", each number being formatted as that trait formats integers, whether the ring has one word or many.", "quantifier": "all rings, all elements, all six formatting traits, all options, all word sizes", "why_tests_cant": "One-word rings are formatted by the core library and larger ones by this library's own code; agreement has to hold for every modulus and every combination of options.", "anchors": ["src/modular/fmt.rs", "src/modular/convert.rs: modulus, residue"]}
{"id": "C47", "title": "Literal macros return the number written", "statement": "ubig! and ibig! return exactly the integer denoted by their argument, for identifiers and literals, with and without a leading underscore, prefix, base or minus sign, and accept nothing that is not a numeral.", "quantifier": "all argument texts, all bases 2..=36, all u128 literals", "why_tests_cant": "The underscore, prefix and base rules interact with every digit string.", "anchors": ["src/macros.rs: ubig!, ibig!"]}
{"id": "C48", "title": "Platform carry primitives agree", "statement": "add_with_carry and sub_with_borrow return exactly the sum or difference with carry in and carry out, and the x86/x86_64 versions return the same as the portable version.", "quantifier": "all words, both carries, all word sizes", "why_tests_cant": "2^129 input combinations on 64-bit machines, and a build uses only one version.", "anchors": ["src/arch/generic/add.rs", "src/arch/x86/add.rs", "src/arch/x86_64/add.rs"]}
{"id": "C49", "title": "Constants of the number-theoretic transform", "statement": "For every word size the three NTT moduli are distinct primes k*2^MAX_ORDER+1 that fit in a word, max_order_root has order exactly 2^MAX_ORDER, entry k of ROOTS is a root of unity of order exactly 2^k, INVERSE_ROOTS holds the inverses, and the product of the primes and MAX_ORDER suffice for every multiplication within MAX_LEN.", "quantifier": "all word sizes, all three primes, all table entries", "why_tests_cant": "The unit tests look only at entries 0 and 1 of the build's own word size; primality and exact order are not tested.", "anchors": ["src/mul/ntt.rs", "src/arch/generic_16_bit/ntt.rs", "src/arch/generic_32_bit/ntt.rs", "src/arch/generic_64_bit/ntt.rs", "src/ubig.rs: MAX_LEN"]}
{"id": "C50", "title": "Scratch memory hands out valid, separate slices", "statement": "Every slice obtained from scratch memory is aligned, lies inside its chunk, holds exactly the elements asked for, and does not overlap any other live slice; no other byte changes; the search finds a place whenever one exists and never wraps around the address space; blocks are released if and only if they came from the allocator. Counting words is a faithful abstraction of this.", "quantifier": "all element types (size, power-of-two alignment), all requests, all chunks, all nestings, all addresses returned by the allocator, all address widths", "why_tests_cant": "The failures would be address wrap-around, misalignment and overlap, which depend on the addresses the allocator happens to return; the code is unsafe and unchecked.", "anchors": ["src/memory.rs"]}
{"id": "C51", "title": "Announced scratch memory is exact and can be requested", "statement": "The layouts announced for multiplication, division, ring multiplication and ring exponentiation have exactly the number of words that the algorithms are proved to get by with, their computation never overflows, and a request beyond isize::MAX bytes ends in 'out of memory'. For all multiplications, divisions and buffers within MAX_LEN the request is legal; for rings it is legal on 64-bit machines, and on 32-bit machines for moduli of up to half of MAX_LEN, but not for all.", "quantifier": "all lengths up to MAX_LEN, all word and address widths", "why_tests_cant": "The limits are reached with operands of hundreds of megabytes on 32-bit machines.", "anchors": ["src/memory.rs", "src/mul/mod.rs: memory_requirement*", "src/mul/karatsuba.rs", "src/mul/toom_3.rs", "src/div/mod.rs", "src/modular/mul.rs", "src/modular/pow.rs"]}
{"id": "C52", "title": "Programs behave alike on all platforms", "statement": "Any program over the modelled operations, started with equal numbers on two platforms with any word and address size, makes the same observations and ends with equal numbers, or stops with the same panic, unless one platform stops because a number is too large for it (and excepting clear_bit of a bit beyond 16 bits, see C18).", "quantifier": "all pairs of platforms, all programs of any length that branch on observations, all initial numbers", "why_tests_cant": "Tests run on one platform, usually 64-bit, and word-size dependent code paths (thresholds, small/large representation) differ.", "anchors": ["src/arch", "src/ubig.rs", "src/add_ops.rs", "src/mul_ops.rs", "src/div_ops.rs", "src/shift_ops.rs", "src/bits.rs", "src/convert.rs", "src/primitive.rs"]}
{"id": "C53", "title": "The whole library refines arithmetic on integers and residues", "statement": "Any program that calls the library - arithmetic, comparison, bits, conversions, parsing, formatting, floating point, extended gcd, serialization, rings and their elements - and chooses its calls from what it has seen so far, has an outcome of an abstract machine whose variables are integers, moduli and residues; afterwards the library's variables still represent the machine's. It stops only with panics that the documentation names, or because a block of scratch memory for a modular product would not fit the address space. The machine's outcome is unique except for Bezout coefficients, inverses modulo numbers above half the maximum, powers whose table may not fit the address space, and over-long texts that are not numerals.", "quantifier": "all programs of any length, all starting states, all word and address widths, both byte orders", "why_tests_cant": "Tests exercise operations in isolation with values built in one way; representation invariants can be broken by one call and only show in a later one.", "anchors": ["src/ubig.rs", "src/ibig.rs", "src/parse", "src/fmt", "src/convert.rs", "src/gcd.rs", "src/serde.rs", "src/modular"]}
{"id": "C54", "title": "All programs behave alike on all platforms", "statement": "Any program that calls the library (as in C53, without clear_bit of bits beyond 16) shows the same texts, errors, floating-point bits, serialized forms and other observations on two platforms of any word size, address size and byte order, and ends in states with the same meaning, or stops with the same panic, unless one platform stops because a number, or the memory for a modular product, is too large for it.", "quantifier": "all pairs of platforms, all programs of any length, all starting states with the same meaning", "why_tests_cant": "Tests run on one platform; chunk sizes of parsing and formatting, serialization and the ring representation depend on the word size.", "anchors": ["src/arch", "src/parse", "src/fmt", "src/serde.rs", "src/convert.rs", "src/modular"]}
{"id": "C55", "title": "Formatting into a sink that reports errors stops at the first error and reports it", "statement": "Formatting a UBig, IBig, InRadix, ModuloRing or Modulo makes a sequence of write_str and write_char calls that does not depend on the sink and whose concatenation is the formatted text of C30 and C46. The calls are made in order up to the first one that fails; then formatting stops and returns the error, otherwise it returns success. So a sink that keeps what it accepts holds the whole text on success and an initial part of it on failure. Every string passed to a sink is ASCII, so str::from_utf8_unchecked in the digit writer is sound. There is no panic.", "quantifier": "all numbers, rings and elements, all formatting options, all radixes, all word sizes and byte orders, all sinks (arbitrary state machines) and states of them", "why_tests_cant": "Tests format into String, which never fails; a lost `?` or a missing flush in one branch would show only with a sink that fails at that very call, and unsound bytes in an unchecked string are undefined behaviour.", "anchors": ["src/fmt/digit_writer.rs:30-62", "src/fmt/mod.rs:273-337", "src/fmt/power_two.rs", "src/fmt/non_power_two.rs", "src/modular/fmt.rs"]}
{"id": "C56", "title": "Errors of serializers and deserializers are passed on", "statement": "Serializing makes the calls serialize_seq(Some(n)), serialize_element for each of the n digits in base 2^64 and end (inside a pair with the sign for IBig), in order up to the first one that fails, and returns that failure, else success. Deserializing returns the error of the deserializer wherever it occurs, provided that the announced length, if any, is neither smaller than the number of elements offered nor too large for any number; without an error it returns the number. A wrong announced length panics (assert/unwrap), and one that exceeds every number is the documented number-too-large panic, before any element is read.", "quantifier": "all numbers, all serializers (arbitrary state machines), all element sequences followed by the end or an error, all hints, all word and address sizes", "why_tests_cant": "The tests use well-behaved serializers only; errors may occur at any of unboundedly many calls.", "anchors": ["src/serde.rs:13-106", "src/sign.rs:10-15"]}
{"id": "C57", "title": "Programs that work on one platform work on every much larger one", "statement": "If the second platform's numbers may have at least eight times as many bits as the first platform's address space has bytes (16-bit to 32-bit machines, 32-bit to 64-bit machines), then a program that calls the library (as in C54) and ends on the first platform ends on the second one after the same observations and in a state with the same meaning; and if it stops on the first platform, it stops on the second one with the same panic, unless the first platform stops because a number or the memory for a modular product is too large for it. None of the second platform's own limits (scratch memory, normalization shifts, extended gcd coefficients, over-long texts) interferes.", "quantifier": "all pairs of platforms with this relation, all programs of any length, all starting states with the same meaning", "why_tests_cant": "Tests run one program on one platform; the claim compares the limits of two platforms for all programs.", "anchors": ["src/arch", "src/ubig.rs", "src/memory.rs", "src/modular", "src/gcd.rs", "src/parse"]}
{"id": "C58", "title": "Panics leave all variables well-formed", "statement": "When an operation in place panics and the caller catches the panic and goes on, all variables are well-formed: the assignment operators, shifts and set_bit on a UBig or IBig leave the canonical zero in the target if they panic and the result otherwise; the assignment operators on elements of modular rings leave the element exactly as it was if they panic (also when the rings differ) and the right element otherwise; no number but the target changes; a client that catches every panic and goes on, calling the library any number of times, always behaves as the abstract machine that does the same, and never catches a failed internal check.", "quantifier": "all operators, all operands, all platforms, all clients of any length that catch panics, all starting states", "why_tests_cant": "Tests of panics end with the panic; what is left in the target, and what later operations do with it, is a property of all sequences of operations.", "anchors": ["src/add_ops.rs", "src/mul_ops.rs", "src/div_ops.rs", "src/bits.rs", "src/shift_ops.rs", "src/ubig.rs", "src/buffer.rs", "src/modular/add.rs", "src/modular/mul.rs", "src/modular/div.rs", "src/modular/modulo.rs"]}
{"id": "C59", "title": "Recursion depth is logarithmic", "statement": "The recursive algorithms of the library nest only logarithmically deep, so no number can exhaust the stack: multiplication with a shorter operand of at most 24*2^k words never has more than 2k+2 recursive calls nested (k+1 for operands of equal length); division by at most 32*2^k words never more than 2k+3, including the multiplications it calls; on every platform twice the number of bits of an address is enough for all numbers; parsing n bytes descends through at most 1+log2(n-1) powers of the radix, and printing n words through at most 1+log2(n).", "quantifier": "all operands of all lengths, all platforms, all radices, all recursion depths at least the bound", "why_tests_cant": "The unbalanced multiplication recurses on remainders as Euclid's algorithm does, so the worst depth occurs for special pairs of lengths; tests cover a handful of lengths and no test measures the depth.", "anchors": ["src/mul/mod.rs", "src/mul/helpers.rs", "src/mul/karatsuba.rs", "src/mul/toom_3.rs", "src/div/divide_conquer.rs", "src/parse/non_power_two.rs", "src/fmt/non_power_two.rs"]}
{"id": "C60", "title": "Multiplication, division and powers have their documented complexity", "statement": "Counting one step for each call of a routine on slices, one for each word that the routine can visit and one for each recursive call, adding the product of a and b with 1 <= b.len() <= a.len() takes at most 350 * a.len() * b.len()^0.47 steps (documented as O(a.len() * b.len()^0.47)); operands of equal length n take at most 120 * n^1.47 steps, and up to 192 words (where Karatsuba is used) at most 24 * n^1.59; up to 24 words the schoolbook method takes at most 20 * a.len() * b.len(). Dividing a words by b words takes at most 1910 * a * min(b, a-b+1)^0.47 steps (documented in CHANGELOG.md:126 as O(n^1.47)). The operators of UBig inherit this: a product takes at most 368 * max * min^0.47 steps for the lengths of the factors, quotient and remainder at most 5376 * a * min(b, a-b+1)^0.47, and u^e at most 1472 * m^1.47 for m = u.len() * e. The counting copies of the algorithms return what the algorithms return, panics included.", "quantifier": "all operands of all lengths, all scratch memories that are large enough, all platforms", "why_tests_cant": "A benchmark measures some sizes on one machine; an algorithm that recurses once too often, on parts that are too long, or with the operands of the chunked loop exchanged still returns correct results and is only slower, asymptotically.", "anchors": ["src/mul/mod.rs:110-173", "src/mul/simple.rs:28-124", "src/mul/karatsuba.rs:36-129", "src/mul/toom_3.rs:55-265", "src/mul/helpers.rs", "src/div/mod.rs:130-143", "src/div/simple.rs", "src/div/divide_conquer.rs", "CHANGELOG.md:126-139", "src/mul_ops.rs", "src/div_ops.rs", "src/pow.rs"]}
{"id": "C61", "title": "Parsing has its documented complexity", "statement": "Counting one step for each call of a routine, one for each word or byte that it can visit and one for each recursive call, parsing a text of n bytes in any radix takes at most 4050 * n^1.47 steps (documented in CHANGELOG.md:127 as O(n^1.47)), whether the text is accepted or rejected; in the radices 2, 4, 8, 16 and 32 it takes at most 10 * n + 1 steps. This covers the powers of the radix that are computed on the way. The counting copy of the parser returns what the parser returns, panics included.", "quantifier": "all texts shorter than the address space, all radices, all platforms", "why_tests_cant": "A parser that splits the text unevenly, recomputes the powers of the radix or multiplies digit by digit still returns correct numbers; it is only slower, asymptotically, and no test measures steps.", "anchors": ["src/parse/mod.rs:47-135", "src/parse/power_two.rs", "src/parse/non_power_two.rs", "CHANGELOG.md:127"]}
{"id": "C62", "title": "Formatting has its documented complexity", "statement": "Counting one step for each call of a routine, one for each word or digit that it can visit, one for each character given to the sink and one for each recursive call, formatting a number of N words in any radix takes at most 39700 * N^1.47 steps (documented in CHANGELOG.md:128 as O(n^1.47)), plus one for each character that the width of the format asks for; in the radices 2, 4, 8, 16 and 32 (so also for {:b}, {:o}, {:x}, {:X}) it takes at most 574 * N steps plus the length of the prefix and the width. This covers the powers of the radix that are computed on the way and the buffering of the digits. The counting copy of the formatter writes what the formatter writes, panics included.", "quantifier": "all numbers, all radices, all format options, both byte orders, all platforms", "why_tests_cant": "A formatter that divides by one word at a time, splits unevenly, recomputes the powers of the radix or flushes its buffer after each digit writes the same text; it is only slower, asymptotically, and no test measures steps.", "anchors": ["src/fmt/mod.rs:242-337", "src/fmt/non_power_two.rs", "src/fmt/power_two.rs", "src/fmt/digit_writer.rs", "CHANGELOG.md:128"]}
{"id": "C63", "title": "Sums, differences and shifts take linear time, greatest common divisors quadratic time", "statement": "Counting one step for each call of a routine and one for each word that it can visit: a sum takes at most 18 steps for each word of the longer operand, a difference 11 for each word of the minuend, a shift to the right 8 for each word, a shift to the left 14 for each word and 3 for each word of zeros added, with operands taken by value or by reference. gcd of numbers of M >= m words takes at most (4000 M + 36 w m) m steps and extended_gcd at most (4100 + 280 w) M m steps, where w is the number of bits of a word. The counting copies return what the operations return, panics included.", "quantifier": "all numbers, all shift amounts, all platforms", "why_tests_cant": "A gcd that subtracts without stripping all zeros, that skips the first division, or that lets the Bezout coefficients grow returns the same numbers; it is only slower (without the first division it is quadratic in the longer operand), and no test measures steps.", "anchors": ["src/gcd.rs:19-174", "src/add_ops.rs:18-162", "src/add_ops.rs:530-606", "src/shift_ops.rs:90-285"]}
{"id": "C64", "title": "Modular arithmetic takes the steps it should: linear sums, sub-quadratic products, windowed powers", "statement": "Counting one step for each call of a routine and one for each word that it can visit, with N the number of words of the modulus: sums, differences and negations in a ring take at most 6 N steps, products at most 3975 N^1.47 steps, bringing a number of M words into the ring at most 1935 (M + N) N^0.47 steps. A power with an exponent of b bits takes at most 7950 b N^1.47 steps; in a ring of two or more words it takes b squares, a table of 2^(w-1) - 1 odd powers and at most (b - 2) / w further products, where the window length w minimizes the code's own estimate 2^(w-1) - 1 + b / (w + 1) over all window lengths, although the search stops at the first length that brings no gain. The counting copies return what the operations return, panics included.", "quantifier": "all rings, all elements, all exponents, all platforms", "why_tests_cant": "A power that multiplies at every bit, that uses a window too short or too long, that fills a table of all powers instead of the odd ones, or that multiplies with the schoolbook algorithm returns the same residue. That stopping at the first local minimum of the estimate finds the global one needs an argument on all lengths of exponents.", "anchors": ["src/modular/pow.rs:30-245", "src/modular/mul.rs:54-158", "src/modular/add.rs:15-287", "src/modular/convert.rs:94-200"]}
{"id": "C65", "title": "Residues take linear time, inverses and quotients in a ring quadratic time", "statement": "Counting one step for each call of a routine and one for each word that it can visit, with N the number of words of the modulus and w the number of bits of a word: residue() takes at most 8 N steps; inverse() takes at most (12000 + 280 w) N^2 steps, also when it finds that there is no inverse; a quotient takes at most (16000 + 280 w) N^2 steps; pow_signed takes the steps of one inverse, none if the exponent is not negative, and those of one power (C64). The counting copies return what the operations return, panics included.", "quantifier": "all rings, all elements, all exponents, all platforms", "why_tests_cant": "An inverse by a power with exponent phi(n) - 1, by the schoolbook Euclidean algorithm with coefficients that are not reduced, or a negative power that inverts after the power or at each bit, returns the same residue; no test measures steps.", "anchors": ["src/modular/div.rs:23-120", "src/modular/pow.rs:52-60", "src/modular/convert.rs:64-135", "src/gcd.rs:73-174"]}
{"id": "C66", "title": "The factorial example prints the factorial", "statement": "In examples/factorial.rs, product(a, b) for 1 <= a < b returns a * (a+1) * ... * (b-1), the recursion ends and its 32-bit arithmetic does not overflow, or it panics because the number is too large. The program, with any n < 2^32 - 1 in the place of a million, prints n! in base 16 with the prefix 0x and no leading zeros, or panics because n! is too large; 1000000! is not too large on 32-bit and 64-bit platforms.", "quantifier": "all a < b, all n below 2^32 - 1, all platforms", "why_tests_cant": "The example is not run by the tests. That halving never yields an empty range, which would recurse forever, and that n + 1 and the middle do not overflow, is needed for all pairs.", "anchors": ["examples/factorial.rs:4-17"]}
{"id": "C67", "title": "The tool that searches for primes is right, and the constants of the library are what it finds", "statement": "In dev-tools/src/bin/ntt_primes.rs: whatever random numbers are drawn, is_prime(mult, order) does not panic and, if it ends, says true exactly if mult * 2^order + 1 is prime; for every number some random number ends it in one round. find_root returns the least number of order exactly 2^order modulo the prime. print_primes(bits), for 3 to 64 bits, prints the largest order for which there are at least three primes below 2^bits that are one modulo 2^order, all these primes in increasing order and their least roots, and panics exactly if the product of the last three is too small; its first assertion never fails. For 16, 32 and 64 bits the order and the last three primes and roots are the constants MAX_ORDER and PRIMES in src/arch.", "quantifier": "all multipliers, orders, sequences of random numbers and numbers of bits from 3 to 64, all platforms", "why_tests_cant": "The tool has no tests, its output is random in time, and the primality of numbers of 64 bits and the leastness of the roots are not checked by the library's tests. A probabilistic test that accepts a composite number would show for few bases only.", "anchors": ["dev-tools/src/bin/ntt_primes.rs:1-111", "src/arch/generic_16_bit/ntt.rs:5-22", "src/arch/generic_32_bit/ntt.rs:5-22", "src/arch/generic_64_bit/ntt.rs:5-22"]}
{"id": "C68", "title": "Limits, compile-time assertions and buffer growth are consistent on every platform", "statement": "UBig::MAX_LEN is the largest even length for which the number of bits fits in usize and which the largest number-theoretic transform can hold; 16 times this length does not overflow. Exactly the numbers of at most MAX_BIT_LEN bits are representable. All compile-time assertions of the crate on lengths and capacities hold for every combination of word size and pointer size, and MAX_CAPACITY does not overflow. A buffer that is extended and shortened by single words in any order, starting from a fresh one, moves at most nine words per change, so extra capacity and the threshold for shrinking make growth amortized constant without thrashing. Appending and removing words never moves a buffer: it succeeds exactly when the words fit (or are there), with the capacity as before. The operations that may move a buffer keep its words, and give it at least the capacity asked for and at most a quarter (and four words) more.", "quantifier": "all platforms, all values, all sequences of growing and shrinking", "why_tests_cant": "A compile-time assertion is checked only for the configuration that is compiled, and there are nine combinations of word and pointer size. Reallocation at each step, or thrashing at a boundary, changes no result and shows only for certain sequences of changes at certain lengths.", "anchors": ["src/ubig.rs:83-118", "src/buffer.rs:24-58", "src/buffer.rs:155-178", "src/serde.rs:10", "src/serde.rs:88", "src/mul_ops.rs:328", "src/fmt/non_power_two.rs:186", "src/div/divide_conquer.rs:76", "src/mul/mod.rs:15-21", "src/buffer.rs:60-150"]}
{"id": "C69", "title": "Bit operations and conversions to and from bytes take linear time", "statement": "The operators &, |, ^, ! and and_not on UBig and IBig, by value and by reference, and also on negative numbers, take at most a constant times as many steps as the longer operand has words; & on UBig at most eight times the words of the shorter operand, and and_not at most seven times the words of the first operand. set_bit takes steps linear in the words of the number and the position of the bit, clear_bit, is_power_of_two and next_power_of_two in the words of the number, from_le_bytes and from_be_bytes in the number of bytes, to_le_bytes and to_be_bytes in the bytes of the words.", "quantifier": "all values, all bit positions, all byte strings, all platforms", "why_tests_cant": "No test measures the time of these operations, and an accidental extra pass or a quadratic loop for some lengths, signs or ownership combinations gives right results.", "anchors": ["src/bits.rs:54-117", "src/bits.rs:198-290", "src/bits.rs:297-646", "src/bits.rs:653-923", "src/convert.rs:40-153"]}
{"id": "C70", "title": "Scratch memory is linear", "statement": "The scratch memory that the code announces and allocates is linear in the operands: a product of any two numbers takes at most 5 words for each word of the shorter one; a division at most 5/2 words for each word of the divisor and at most 5 for each word of the quotient; a product in a ring at most 7 words for each word of the modulus; a power in a ring additionally a table of odd powers with at most one entry for every three bits of the exponent, plus one.", "quantifier": "all lengths up to MAX_LEN, all exponents, all platforms", "why_tests_cant": "Tests do not measure memory, and the announced sizes are formulas with logarithms and a search for the window length; a mistake that only wastes memory gives right results.", "anchors": ["src/mul/mod.rs:111-124", "src/mul/karatsuba.rs:23-36", "src/mul/toom_3.rs:31-55", "src/div/mod.rs:112-119", "src/div/divide_conquer.rs:16-24", "src/modular/mul.rs:103-112", "src/modular/pow.rs:144-155", "src/modular/pow.rs:230-245"]}
{"id": "C71", "title": "Comparisons, conversions to primitive types and serialization are fast", "statement": "Comparing or testing equality of two numbers visits at most as many words as the shorter one has, and none if they differ in sign or number of words; conversion to a primitive integer type takes time bounded by the width of the type; conversion to f32 or f64 takes bounded time however large the number is; serialization takes time linear in the number of words and deserialization in the number of elements, with or without a size hint.", "quantifier": "all pairs of numbers, all primitive widths, all numbers and all element sequences, on all word and address sizes", "why_tests_cant": "Tests check results, not the number of steps, and only for small numbers.", "anchors": ["src/cmp.rs: Ord for UBig and IBig", "src/convert.rs: to_f32, to_f64, try_to_unsigned, try_to_signed, unsigned_from_words", "src/bits.rs: are_low_bits_nonzero", "src/serde.rs: serialize, visit_seq"]}
{"id": "C72", "title": "A random number takes a linear expected number of random words", "statement": "Sampling a UBig or IBig uniformly from a half-open or closed range of less than 2^(WORD_BITS*N) numbers draws at most 2N words from the generator on average, if the generator is uniform, no matter how often attempts are rejected. Whatever the generator answers, k attempts draw at most k*N words.", "quantifier": "all platforms, all ranges, all answers of the generator, any number of attempts", "why_tests_cant": "A test sees a few runs of a random process; the average over all answers of the generator, with unboundedly many attempts, is a sum over a tree that no test walks. A sampler that retries too often, or fills all words before comparing the top one, gives the same numbers.", "anchors": ["src/rand.rs:27-79", "src/rand.rs:131-136", "src/rand.rs:192-197"]}
{"id": "C73", "title": "The benchmarks measure numbers of the announced size and never fail", "statement": "random_ubig(bits) of the benchmarks draws each number of exactly `bits` bits with the same probability and no other number. On platforms with words and pointers of at least 32 bits, for all sizes in the file and whatever the generator answers, no benchmark panics, and the measured operation returns the right result: sum, difference, product, quotient and remainder, (extended) gcd, hexadecimal and decimal text, parsed text, power, modular product and power. The texts fit the capacity that the output string is made with, so no reallocation is measured. As the file says, the benchmarks do not work on 16-bit machines: the larger sizes panic.", "quantifier": "all platforms, all sizes up to half of MAX_BIT_LEN (the ones of the file are among them), all answers of the generator, any number of attempts", "why_tests_cant": "The benchmarks are run with one seed on one machine; a wrong range or a capacity that is too small shows up for some numbers only, and a string that grows while being measured changes times, not results.", "anchors": ["benches/benchmarks.rs:13-18", "benches/benchmarks.rs:20-87", "benches/benchmarks.rs:89-118", "benches/benchmarks.rs:120-160", "benches/benchmarks.rs:162-208", "benches/benchmarks.rs:210-249"]}
{"id": "C74", "title": "Messages of errors and panics name their cause", "statement": "When parsing fails, the message of the error is \"no digits\" if the text is empty or only a sign, and \"invalid digit\" otherwise. The panic about a number that is too large announces a maximum number of bits, written in decimal, and exactly the numbers of at most that many bits are representable. The panic about a radix quotes the radix in decimal. Writing a message never fails itself, every documented panic has a message, and the message determines which call of panic! was reached and with which radix.", "quantifier": "all platforms, all texts that fit in memory, all valid radixes for parsing, all u32 radixes in messages, all panic! calls in src", "why_tests_cant": "The crate's tests check a few messages as substrings (should_panic) on one platform; the announced maximum depends on word and pointer size.", "anchors": ["src/error.rs: Display for OutOfBoundsError, ParseError", "src/ubig.rs:116-118", "src/radix.rs:24-28", "src/div_ops.rs:1646-1648", "src/memory.rs:187-193", "src/gcd.rs:23,82"]}
