{
 "claims": [
  {
   "property": "C01",
   "status": "proved",
   "theorems": [
    "C01_ubig_add_exact"
   ],
   "note": ""
  },
  {
   "property": "C02",
   "status": "proved",
   "theorems": [
    "C02_ubig_sub_exact",
    "C02_ubig_sub_total"
   ],
   "note": ""
  },
  {
   "property": "C03",
   "status": "proved",
   "theorems": [
    "C03_ibig_add_exact",
    "C03_ibig_sub_exact"
   ],
   "note": ""
  },
  {
   "property": "C04",
   "status": "proved",
   "theorems": [
    "C04_ubig_mul_exact",
    "C04_ibig_mul_exact"
   ],
   "note": ""
  },
  {
   "property": "C05",
   "status": "proved",
   "theorems": [
    "C05_mul_memory_sufficient",
    "C05_ubig_mul_no_internal_panic",
    "C05_ibig_mul_no_internal_panic"
   ],
   "note": ""
  },
  {
   "property": "C06",
   "status": "proved",
   "theorems": [
    "C06_ubig_div_exact",
    "C06_ubig_rem_exact",
    "C06_ubig_div_rem_exact",
    "C06_div_rem_unique"
   ],
   "note": ""
  },
  {
   "property": "C07",
   "status": "proved",
   "theorems": [
    "C07_div_memory_sufficient",
    "C07_ubig_div_no_internal_panic",
    "C07_ubig_rem_no_internal_panic",
    "C07_ubig_div_rem_no_internal_panic"
   ],
   "note": ""
  },
  {
   "property": "C08",
   "status": "proved",
   "theorems": [
    "C08_normalized",
    "C08_small"
   ],
   "note": ""
  },
  {
   "property": "C09",
   "status": "proved",
   "theorems": [
    "C09_ibig_div_exact",
    "C09_ibig_rem_exact",
    "C09_ibig_div_rem_exact",
    "C09_truncation"
   ],
   "note": ""
  },
  {
   "property": "C10",
   "status": "proved",
   "theorems": [
    "C10_ibig_div_euclid_exact",
    "C10_ibig_rem_euclid_exact",
    "C10_ibig_div_rem_euclid_exact",
    "C10_euclid"
   ],
   "note": ""
  },
  {
   "property": "C11",
   "status": "proved",
   "theorems": [
    "C11_ubig_eq",
    "C11_ibig_eq",
    "C11_ubig_unique",
    "C11_ibig_unique",
    "C11_canonicalization",
    "C11_no_negative_zero",
    "C11_history"
   ],
   "note": ""
  },
  {
   "property": "C12",
   "status": "proved",
   "theorems": [
    "C12_ubig_cmp",
    "C12_ibig_cmp"
   ],
   "note": ""
  },
  {
   "property": "C13",
   "status": "proved",
   "theorems": [
    "C13_ubig_shl_exact",
    "C13_ibig_shl_exact",
    "C13_zero"
   ],
   "note": ""
  },
  {
   "property": "C14",
   "status": "proved",
   "theorems": [
    "C14_ubig_shr_exact",
    "C14_ibig_shr_exact"
   ],
   "note": ""
  },
  {
   "property": "C15",
   "status": "proved",
   "theorems": [
    "C15_ubig_and",
    "C15_ubig_or",
    "C15_ubig_xor",
    "C15_ubig_and_not"
   ],
   "note": ""
  },
  {
   "property": "C16",
   "status": "proved",
   "theorems": [
    "C16_bits_determine",
    "C16_ibig_and",
    "C16_ibig_or",
    "C16_ibig_xor",
    "C16_ibig_and_not",
    "C16_ibig_not",
    "C16_twos_complement"
   ],
   "note": ""
  },
  {
   "property": "C17",
   "status": "proved",
   "theorems": [
    "C17_bit",
    "C17_set_bit"
   ],
   "note": ""
  },
  {
   "property": "C18",
   "status": "partial",
   "theorems": [
    "C18_clear_bit_refuted",
    "C18_clear_bit_partial",
    "C18_clear_bit_wrong"
   ],
   "note": "The code violates the property: clear_bit(n) with n >= WORD_BITS on a one-word number returns 0 (C18_clear_bit_refuted, src/bits.rs:100-109). Proved for all remaining cases."
  },
  {
   "property": "C19",
   "status": "proved",
   "theorems": [
    "C19_ubig_trailing_zeros",
    "C19_ibig_trailing_zeros",
    "C19_bit_len",
    "C19_is_power_of_two",
    "C19_next_power_of_two"
   ],
   "note": ""
  },
  {
   "property": "C20",
   "status": "proved",
   "theorems": [
    "C20_from_le_bytes",
    "C20_from_be_bytes",
    "C20_to_bytes",
    "C20_shortest_unique",
    "C20_le_roundtrip",
    "C20_be_roundtrip"
   ],
   "note": ""
  },
  {
   "property": "C21",
   "status": "proved",
   "theorems": [
    "C21_from_primitive",
    "C21_from_bool",
    "C21_ubig_to_primitive",
    "C21_ibig_to_primitive",
    "C21_ibig_from_ubig",
    "C21_ubig_from_ibig"
   ],
   "note": ""
  },
  {
   "property": "C22",
   "status": "proved",
   "theorems": [
    "C22_ubig_to_f32",
    "C22_ubig_to_f64",
    "C22_ibig_to_f32",
    "C22_ibig_to_f64",
    "C22_nearest_unique",
    "C22_bits_unique"
   ],
   "note": ""
  },
  {
   "property": "C23",
   "status": "proved",
   "theorems": [
    "C23_ubig_gcd",
    "C23_ibig_gcd"
   ],
   "note": ""
  },
  {
   "property": "C24",
   "status": "partial",
   "theorems": [
    "C24_ubig_extended_gcd_partial",
    "C24_ibig_extended_gcd_partial",
    "C24_ubig_extended_gcd_all",
    "C24_ibig_extended_gcd_all",
    "C24_ubig_same_coefficients",
    "C24_ibig_same_coefficients",
    "C24_extended_gcd_refuted"
   ],
   "note": "Proved for all numbers with 2*max(a,b) < 2^(MAX_BIT_LEN+k) for some k with 2^k dividing both, and for all numbers up to a panic; the bounds |x| <= max(b,1), |y| <= max(a,1) hold for every result. The code violates the property for larger ones: it panics \"number too large\" on (2, 2^MAX_BIT_LEN - 1) though the result fits (C24_extended_gcd_refuted, src/gcd.rs:138-149)."
  },
  {
   "property": "C25",
   "status": "proved",
   "theorems": [
    "C25_ubig_pow",
    "C25_ibig_pow"
   ],
   "note": ""
  },
  {
   "property": "C26",
   "status": "proved",
   "theorems": [
    "C26_ubig_numeral",
    "C26_ibig_numeral",
    "C26_ubig_only_numerals",
    "C26_ibig_only_numerals",
    "C26_ubig_empty",
    "C26_ibig_empty",
    "C26_ubig_invalid",
    "C26_ibig_invalid",
    "C26_overlong_invalid_refuted",
    "C26_invalid_radix",
    "C26_from_str",
    "C26_from_str_decimal"
   ],
   "note": ""
  },
  {
   "property": "C27",
   "status": "proved",
   "theorems": [
    "C27_ubig_prefix",
    "C27_ibig_prefix",
    "C27_ubig_only",
    "C27_ibig_only",
    "C27_no_digits",
    "C27_ubig_invalid",
    "C27_ibig_invalid"
   ],
   "note": ""
  },
  {
   "property": "C28",
   "status": "proved",
   "theorems": [
    "C28_ubig",
    "C28_ibig",
    "C28_in_radix",
    "C28_invalid_radix",
    "C28_unique"
   ],
   "note": ""
  },
  {
   "property": "C29",
   "status": "proved",
   "theorems": [
    "C29_ubig",
    "C29_ibig",
    "C29_display_ubig",
    "C29_display_ibig",
    "C29_prefix_ubig",
    "C29_prefix_ibig"
   ],
   "note": ""
  },
  {
   "property": "C30",
   "status": "proved",
   "theorems": [
    "C30_ubig",
    "C30_ibig",
    "C30_ubig_in_radix",
    "C30_ibig_in_radix",
    "C30_length"
   ],
   "note": ""
  },
  {
   "property": "C31",
   "status": "partial",
   "theorems": [
    "C31_ring_new",
    "C31_ring_new_zero",
    "C31_modulus",
    "C31_residue",
    "C31_from_ubig_partial",
    "C31_from_ibig_partial",
    "C31_from_refuted",
    "C31_from_unsigned",
    "C31_from_signed",
    "C31_from_bool",
    "C31_elements_exist",
    "C31_valid_small",
    "C31_valid_large"
   ],
   "note": "Proved for all moduli and all numbers x with x * 2^shift < 2^MAX_BIT_LEN (every x in one-word rings, every primitive integer); for the others the code violates the property: it panics \"number too large\" though the residue is small (C31_from_refuted, src/modular/convert.rs:200-201)."
  },
  {
   "property": "C32",
   "status": "partial",
   "theorems": [
    "C32_add",
    "C32_sub",
    "C32_mul",
    "C32_mul_room",
    "C32_mul_refuted",
    "C32_neg",
    "C32_eq",
    "C32_clone"
   ],
   "note": "Addition, subtraction, negation, equality and clones are proved for all rings; multiplication exactly: it returns the residue if the double-length product and its scratch memory fit the address space (always on 64-bit machines, and if the square of the modulus is not too large a number), and panics with out of memory otherwise. The code violates the property there: on 32-bit machines 2 times 3 modulo 2^MAX_BIT_LEN - 1 panics (C32_mul_refuted, src/modular/mul.rs)."
  },
  {
   "property": "C33",
   "status": "partial",
   "theorems": [
    "C33_pow_partial",
    "C33_pow",
    "C33_pow_room",
    "C33_pow_refuted",
    "C33_pow_signed_partial",
    "C33_pow_signed_all",
    "C33_pow_signed_refuted"
   ],
   "note": "pow: proved for all moduli, bases and exponents for which the table of powers and the product fit the address space, and for all up to the panic out of memory (C33_pow_refuted). pow_signed: moreover for moduli below 2^(MAX_BIT_LEN-1), and for all moduli up to a panic; the code violates the property for larger moduli, see C34 (C33_pow_signed_refuted)."
  },
  {
   "property": "C34",
   "status": "partial",
   "theorems": [
    "C34_inverse_partial",
    "C34_div_partial",
    "C34_inverse_all",
    "C34_div_all",
    "C34_inverse_refuted"
   ],
   "note": "inverse: proved for moduli below 2^(MAX_BIT_LEN-1), and for all moduli up to a panic. The code violates the property for larger ones: the inverse of 2 modulo 2^MAX_BIT_LEN - 1 panics \"number too large\" (C34_inverse_refuted), a consequence of C24_extended_gcd_refuted. Division: the same if there is room for the product (see C32), and with the exact panic otherwise."
  },
  {
   "property": "C35",
   "status": "proved",
   "theorems": [
    "C35_different_rings",
    "C35_div_different_rings"
   ],
   "note": ""
  },
  {
   "property": "C36",
   "status": "partial",
   "theorems": [
    "C36_ubig_serialize",
    "C36_ibig_serialize",
    "C36_platform_independent",
    "C36_ibig_platform_independent",
    "C36_ubig_deserialize",
    "C36_ibig_deserialize",
    "C36_ubig_deserialize_padded_partial",
    "C36_ibig_deserialize_padded_partial",
    "C36_padded_refuted",
    "C36_ubig_roundtrip",
    "C36_ibig_roundtrip"
   ],
   "note": "Serialization and the round trip are proved for all numbers; deserialization is proved for every sequence whose announced length fits a buffer. A sequence padded with zeros beyond the buffer capacity panics instead of giving the number (C36_padded_refuted, src/serde.rs)."
  },
  {
   "property": "C37",
   "status": "proved",
   "theorems": [
    "C37_ubig_new",
    "C37_ubig_new_inclusive",
    "C37_ibig_new",
    "C37_ibig_new_inclusive"
   ],
   "note": ""
  },
  {
   "property": "C38",
   "status": "proved",
   "theorems": [
    "C38_ubig_add_unsigned",
    "C38_ubig_sub_unsigned",
    "C38_ubig_mul_unsigned",
    "C38_ubig_or_unsigned",
    "C38_ubig_xor_unsigned",
    "C38_ubig_and_not_unsigned",
    "C38_ubig_and_unsigned",
    "C38_ubig_and_assign_unsigned",
    "C38_ubig_div_unsigned",
    "C38_ubig_rem_unsigned",
    "C38_ubig_rem_assign_unsigned",
    "C38_ubig_div_rem_unsigned",
    "C38_ubig_add_signed",
    "C38_ubig_sub_signed",
    "C38_ubig_mul_signed",
    "C38_ubig_and_signed",
    "C38_ubig_or_signed",
    "C38_ubig_xor_signed",
    "C38_ubig_and_not_signed",
    "C38_ubig_div_signed",
    "C38_ubig_div_euclid_signed",
    "C38_ubig_rem_signed",
    "C38_ubig_rem_assign_signed",
    "C38_ubig_div_rem_signed",
    "C38_ubig_div_rem_euclid_signed",
    "C38_ibig_add_primitive",
    "C38_ibig_sub_primitive",
    "C38_ibig_mul_primitive",
    "C38_ibig_or_primitive",
    "C38_ibig_xor_primitive",
    "C38_ibig_and_not_primitive",
    "C38_ibig_div_primitive",
    "C38_ibig_div_euclid_primitive",
    "C38_ibig_and_assign_primitive",
    "C38_primitive_sub_ibig",
    "C38_ibig_rem_assign_primitive",
    "C38_ibig_rem_euclid_primitive",
    "C38_ibig_div_rem_euclid_primitive",
    "C38_ibig_and_unsigned",
    "C38_ibig_rem_unsigned",
    "C38_ibig_div_rem_unsigned",
    "C38_ibig_and_signed",
    "C38_ibig_rem_signed",
    "C38_ibig_div_rem_signed"
   ],
   "note": ""
  },
  {
   "property": "C39",
   "status": "proved",
   "theorems": [
    "C39_compact",
    "C39_no_internal_panic",
    "C39_all_calls",
    "C39_exact_vec",
    "C39_all_calls_no_internal_panic"
   ],
   "note": ""
  },
  {
   "property": "C40",
   "status": "proved",
   "theorems": [
    "C40_clone",
    "C40_clone_from",
    "C40_history"
   ],
   "note": ""
  },
  {
   "property": "C41",
   "status": "proved",
   "theorems": [
    "C41_sign_ops",
    "C41_sign_mul"
   ],
   "note": ""
  },
  {
   "property": "C42",
   "status": "partial",
   "theorems": [
    "C42_zero_one",
    "C42_ubig_is_zero",
    "C42_ibig_is_zero",
    "C42_signed",
    "C42_pow",
    "C42_from_str_radix",
    "C42_abs_sub_partial",
    "C42_abs_sub_refuted",
    "C42_abs_sub_distance"
   ],
   "note": "abs_sub violates its contract (C42_abs_sub_refuted, src/num_traits.rs:90-92); everything else is proved."
  },
  {
   "property": "C43",
   "status": "partial",
   "theorems": [
    "C43_histories_partial",
    "C43_histories_no_clear_bit",
    "C43_histories_refuted",
    "C43_no_internal_panic"
   ],
   "note": "Proved for every adaptive program over the arithmetic, bitwise, shift, comparison, gcd, pow, clone, bytes and primitive-conversion operations, except at the calls of clear_bit that C18 shows to be wrong; there the code violates the property (C43_histories_refuted). Programs that also use extended gcd, text, floats and residues are covered by C53."
  },
  {
   "property": "C44",
   "status": "proved",
   "theorems": [
    "C44_chunk",
    "C44_writer"
   ],
   "note": ""
  },
  {
   "property": "C45",
   "status": "proved",
   "theorems": [
    "C45_ubig_add",
    "C45_ibig_add",
    "C45_ubig_sub",
    "C45_ibig_sub",
    "C45_ubig_mul",
    "C45_ibig_mul",
    "C45_ubig_and",
    "C45_ibig_and",
    "C45_ubig_or",
    "C45_ibig_or",
    "C45_ubig_xor",
    "C45_ibig_xor",
    "C45_ubig_and_not",
    "C45_ibig_and_not",
    "C45_ubig_div",
    "C45_ibig_div",
    "C45_ubig_rem",
    "C45_ibig_rem",
    "C45_ibig_div_euclid",
    "C45_ibig_rem_euclid",
    "C45_shifts"
   ],
   "note": ""
  },
  {
   "property": "C46",
   "status": "partial",
   "theorems": [
    "C46_ring_partial",
    "C46_element_partial",
    "C46_debug_hex",
    "C46_debug_is_display_refuted"
   ],
   "note": "Proved for all traits except Debug under {:x?} and {:X?}; there one-word rings print hexadecimal and larger rings decimal (C46_debug_hex, C46_debug_is_display_refuted). The formatting of primitive integers by the core library is modelled from its documentation."
  },
  {
   "property": "C47",
   "status": "proved",
   "theorems": [
    "C47_identifier",
    "C47_base",
    "C47_literal",
    "C47_identifier_only",
    "C47_base_only",
    "C47_ibig_only"
   ],
   "note": ""
  },
  {
   "property": "C48",
   "status": "proved",
   "theorems": [
    "C48_add_with_carry",
    "C48_sub_with_borrow",
    "C48_x86_add",
    "C48_x86_sub"
   ],
   "note": ""
  },
  {
   "property": "C49",
   "status": "proved",
   "theorems": [
    "C49_primes",
    "C49_max_order_root",
    "C49_tables",
    "C49_capacity",
    "C49_long_enough"
   ],
   "note": ""
  },
  {
   "property": "C50",
   "status": "proved",
   "theorems": [
    "C50_search",
    "C50_request",
    "C50_nested",
    "C50_word_count",
    "C50_block",
    "C50_released"
   ],
   "note": ""
  },
  {
   "property": "C51",
   "status": "partial",
   "theorems": [
    "C51_mul_layout",
    "C51_mul_fits",
    "C51_div_fits",
    "C51_buffer_fits",
    "C51_ring_mul_layout",
    "C51_ring_mul_fits_partial",
    "C51_ring_mul_refuted",
    "C51_ring_pow_layout"
   ],
   "note": "Proved for multiplication, division and buffers. For rings the exact limit is proved; requests are always legal on 64-bit machines, and elsewhere for moduli of up to half of MAX_LEN words. The rest is refuted: on 32-bit machines every multiplication in a ring of MAX_LEN words panics with out of memory (C51_ring_mul_refuted)."
  },
  {
   "property": "C52",
   "status": "proved",
   "theorems": [
    "C52_portable"
   ],
   "note": ""
  },
  {
   "property": "C53",
   "status": "proved",
   "theorems": [
    "C53_refines",
    "C53_start",
    "C53_panics",
    "C53_one_outcome"
   ],
   "note": ""
  },
  {
   "property": "C54",
   "status": "proved",
   "theorems": [
    "C54_portable",
    "C54_same_numbers"
   ],
   "note": ""
  },
  {
   "property": "C55",
   "status": "proved",
   "theorems": [
    "C55_ubig",
    "C55_ibig",
    "C55_ubig_in_radix",
    "C55_ibig_in_radix",
    "C55_ring",
    "C55_element",
    "C55_prefix",
    "C55_infallible",
    "C55_broken"
   ],
   "note": ""
  },
  {
   "property": "C56",
   "status": "proved",
   "theorems": [
    "C56_ubig_serialize",
    "C56_ibig_serialize",
    "C56_no_error",
    "C56_error",
    "C56_wrong_hint",
    "C56_huge_hint",
    "C56_sign_error",
    "C56_ibig_no_error",
    "C56_ibig_error"
   ],
   "note": ""
  },
  {
   "property": "C57",
   "status": "proved",
   "theorems": [
    "C57_carried_over"
   ],
   "note": ""
  },
  {
   "property": "C58",
   "status": "proved",
   "theorems": [
    "C58_ubig_assign",
    "C58_ibig_assign",
    "C58_ubig_prim_assign",
    "C58_ibig_prim_assign",
    "C58_shift_assign",
    "C58_set_bit",
    "C58_modulo_assign",
    "C58_modulo_other_ring",
    "C58_refines",
    "C58_well_formed",
    "C58_panics",
    "C58_others_untouched"
   ],
   "note": ""
  },
  {
   "property": "C59",
   "status": "proved",
   "theorems": [
    "C59_mul_same_len",
    "C59_mul",
    "C59_div",
    "C59_mul_platform",
    "C59_div_platform",
    "C59_parse",
    "C59_fmt"
   ],
   "note": ""
  },
  {
   "property": "C60",
   "status": "proved",
   "theorems": [
    "C60_same_mul",
    "C60_same_div",
    "C60_mul",
    "C60_mul_same_len",
    "C60_mul_simple",
    "C60_div",
    "C60_ubig_mul",
    "C60_ubig_div_rem",
    "C60_pow"
   ],
   "note": ""
  },
  {
   "property": "C61",
   "status": "proved",
   "theorems": [
    "C61_same_ubig",
    "C61_same_ibig",
    "C61_ubig",
    "C61_ibig",
    "C61_power_two"
   ],
   "note": ""
  },
  {
   "property": "C62",
   "status": "proved",
   "theorems": [
    "C62_same_display",
    "C62_same_in_radix",
    "C62_ubig",
    "C62_ibig",
    "C62_in_radix",
    "C62_power_two"
   ],
   "note": ""
  },
  {
   "property": "C63",
   "status": "proved",
   "theorems": [
    "C63_same_gcd",
    "C63_same_linear",
    "C63_add",
    "C63_sub",
    "C63_shl",
    "C63_shr",
    "C63_gcd",
    "C63_extended_gcd"
   ],
   "note": ""
  },
  {
   "property": "C64",
   "status": "proved",
   "theorems": [
    "C64_same",
    "C64_neg",
    "C64_sum",
    "C64_mul",
    "C64_into",
    "C64_pow",
    "C64_best_window",
    "C64_windows"
   ],
   "note": ""
  },
  {
   "property": "C65",
   "status": "proved",
   "theorems": [
    "C65_same",
    "C65_residue",
    "C65_inverse",
    "C65_div",
    "C65_pow_signed"
   ],
   "note": ""
  },
  {
   "property": "C66",
   "status": "proved",
   "theorems": [
    "C66_product",
    "C66_prints",
    "C66_million",
    "C66_factorial"
   ],
   "note": ""
  },
  {
   "property": "C67",
   "status": "proved",
   "theorems": [
    "C67_is_prime",
    "C67_is_prime_ends",
    "C67_find_root",
    "C67_search",
    "C67_search_ends",
    "C67_constants"
   ],
   "note": ""
  },
  {
   "property": "C68",
   "status": "proved",
   "theorems": [
    "C68_max_len",
    "C68_supported",
    "C68_const_asserts",
    "C68_growth",
    "C68_append",
    "C68_remove",
    "C68_move"
   ],
   "note": ""
  },
  {
   "property": "C69",
   "status": "proved",
   "theorems": [
    "C69_same_unsigned",
    "C69_same_signed",
    "C69_same_others",
    "C69_and",
    "C69_or",
    "C69_and_not",
    "C69_signed",
    "C69_not",
    "C69_set_bit",
    "C69_clear_bit",
    "C69_is_power_of_two",
    "C69_next_power_of_two",
    "C69_from_bytes",
    "C69_to_bytes"
   ],
   "note": ""
  },
  {
   "property": "C70",
   "status": "proved",
   "theorems": [
    "C70_mul",
    "C70_div",
    "C70_ring_mul",
    "C70_ring_pow",
    "C70_table"
   ],
   "note": ""
  },
  {
   "property": "C71",
   "status": "proved",
   "theorems": [
    "C71_same",
    "C71_ubig_cmp",
    "C71_ubig_equal",
    "C71_ibig_cmp",
    "C71_ibig_equal",
    "C71_ubig_primitive",
    "C71_ibig_primitive",
    "C71_ubig_float",
    "C71_ibig_float",
    "C71_ubig_serialize",
    "C71_ibig_serialize",
    "C71_ubig_deserialize",
    "C71_ibig_deserialize"
   ],
   "note": ""
  },
  {
   "property": "C72",
   "status": "proved",
   "theorems": [
    "C72_ubig",
    "C72_ibig"
   ],
   "note": ""
  },
  {
   "property": "C73",
   "status": "proved",
   "theorems": [
    "C73_random",
    "C73_sizes",
    "C73_not_16_bit",
    "C73_add",
    "C73_sub",
    "C73_mul",
    "C73_div",
    "C73_gcd",
    "C73_extended_gcd",
    "C73_to_hex",
    "C73_to_dec",
    "C73_from_text",
    "C73_pow",
    "C73_modulo_mul",
    "C73_modulo_pow"
   ],
   "note": ""
  },
  {
   "property": "C74",
   "status": "proved",
   "theorems": [
    "C74_parse_ubig",
    "C74_parse_ibig",
    "C74_too_large",
    "C74_radix",
    "C74_total",
    "C74_distinct"
   ],
   "note": ""
  }
 ]
}