{
 "claims": [
  {
   "property": "C01",
   "status": "proved",
   "theorems": [
    "C01_canonical_histories"
   ],
   "note": "Any program over any number of variables, both policies for the out-of-bounds access."
  },
  {
   "property": "C02",
   "status": "proved",
   "theorems": [
    "C02_string_constructor"
   ],
   "note": ""
  },
  {
   "property": "C03",
   "status": "proved",
   "theorems": [
    "C03_print_roundtrip"
   ],
   "note": ""
  },
  {
   "property": "C04",
   "status": "proved",
   "theorems": [
    "C04_add_exact"
   ],
   "note": "Sum exact with the out-of-bounds write of C06 treated as a no-op; without that reading, exact outside the C06 case."
  },
  {
   "property": "C05",
   "status": "proved",
   "theorems": [
    "C05_floor_division_of_ints",
    "C05_sub_exact"
   ],
   "note": "Difference exact with the out-of-bounds write of C06 treated as a no-op; without that reading, exact outside the C06 case."
  },
  {
   "property": "C06",
   "status": "partial",
   "theorems": [
    "C06_sub_in_bounds_refuted",
    "C06_sub_in_bounds_exact",
    "C06_strict_refines_benign"
   ],
   "note": "REFUTED. 5 - 3 reads and writes one digit past the end. The exact condition is proved, and the only effect on other results is undefined behaviour."
  },
  {
   "property": "C07",
   "status": "proved",
   "theorems": [
    "C07_mul_exact"
   ],
   "note": ""
  },
  {
   "property": "C08",
   "status": "proved",
   "theorems": [
    "C08_div_trunc"
   ],
   "note": "Fuel bound inside one quotient digit is nine subtractions."
  },
  {
   "property": "C09",
   "status": "partial",
   "theorems": [
    "C09_division_identity_refuted",
    "C09_division_identity_nonneg",
    "C09_division_identity_exact"
   ],
   "note": "REFUTED: (-7)/2*2 + (-7)%2 is -5. Holds for non-negative dividends; the exact failing set is proved."
  },
  {
   "property": "C10",
   "status": "proved",
   "theorems": [
    "C10_mod_value"
   ],
   "note": ""
  },
  {
   "property": "C11",
   "status": "proved",
   "theorems": [
    "C11_compare"
   ],
   "note": ""
  },
  {
   "property": "C12",
   "status": "proved",
   "theorems": [
    "C12_inc_dec"
   ],
   "note": ""
  },
  {
   "property": "C13",
   "status": "proved",
   "theorems": [
    "C13_factorial"
   ],
   "note": ""
  },
  {
   "property": "C14",
   "status": "proved",
   "theorems": [
    "C14_is_prime"
   ],
   "note": ""
  },
  {
   "property": "C15",
   "status": "proved",
   "theorems": [
    "C15_next_prime"
   ],
   "note": ""
  },
  {
   "property": "C16",
   "status": "proved",
   "theorems": [
    "C16_sqrt_floor"
   ],
   "note": ""
  },
  {
   "property": "C17",
   "status": "partial",
   "theorems": [
    "C17_sqrt_terminates_refuted",
    "C17_sqrt_terminates_exact"
   ],
   "note": "REFUTED: sqrt(8) loops forever. The exact failing set (k*k-1, k>=3) is proved."
  },
  {
   "property": "C18",
   "status": "proved",
   "theorems": [
    "C18_pow"
   ],
   "note": ""
  },
  {
   "property": "C19",
   "status": "proved",
   "theorems": [
    "C19_pow_mod"
   ],
   "note": ""
  },
  {
   "property": "C20",
   "status": "partial",
   "theorems": [
    "C20_pow_documented_refuted",
    "C20_value",
    "C20_exact"
   ],
   "note": "REFUTED: pow(1,1,1)=1, pow(2,0,1)=1, pow(-5,3,12)=-5 while pow(-5,3)%12=5. C19 is the proved positive domain; C20_value gives the value everywhere, C20_exact exactly where the two differ."
  },
  {
   "property": "C21",
   "status": "proved",
   "theorems": [
    "C21_log"
   ],
   "note": "Assumes the digit count fits in int, as digits() returns int."
  },
  {
   "property": "C22",
   "status": "proved",
   "theorems": [
    "C22_gcd"
   ],
   "note": ""
  },
  {
   "property": "C23",
   "status": "proved",
   "theorems": [
    "C23_lcm"
   ],
   "note": ""
  },
  {
   "property": "C24",
   "status": "proved",
   "theorems": [
    "C24_to_integer",
    "C24_to_integer_outside"
   ],
   "note": ""
  },
  {
   "property": "C25",
   "status": "partial",
   "theorems": [
    "C25_to_integer_min_refuted"
   ],
   "note": "REFUTED for the minimum of every signed type of at least 32 bits."
  },
  {
   "property": "C26",
   "status": "partial",
   "theorems": [
    "C26_from_int_refuted",
    "C26_from_int_otherwise"
   ],
   "note": "REFUTED at INT_MIN only; proved for every other int."
  },
  {
   "property": "C27",
   "status": "partial",
   "theorems": [
    "C27_self_add_refuted",
    "C27_self_add_exact"
   ],
   "note": "REFUTED: 5 += itself is 20. Exact behaviour proved."
  },
  {
   "property": "C28",
   "status": "proved",
   "theorems": [
    "C28_hash"
   ],
   "note": ""
  },
  {
   "property": "C29",
   "status": "proved",
   "theorems": [
    "C29_queries"
   ],
   "note": ""
  },
  {
   "property": "C30",
   "status": "proved",
   "theorems": [
    "C30_neg_abs"
   ],
   "note": ""
  },
  {
   "property": "C31",
   "status": "proved",
   "theorems": [
    "C31_move"
   ],
   "note": ""
  },
  {
   "property": "C32",
   "status": "proved",
   "theorems": [
    "C32_random"
   ],
   "note": "Random draws are arbitrary parameters within their distributions' ranges."
  },
  {
   "property": "C33",
   "status": "proved",
   "theorems": [
    "C33_extraction",
    "C33_spaces",
    "C33_extraction_exhausted",
    "C33_read_back"
   ],
   "note": ""
  },
  {
   "property": "C34",
   "status": "proved",
   "theorems": [
    "C34_programs_refine",
    "C34_programs_total",
    "C34_programs_standard"
   ],
   "note": "Statements excluded by the predicate allowed: x+=x, INT_MIN construction, sqrt on the C17 set, negative base with a modulus, self-move."
  },
  {
   "property": "C35",
   "status": "proved",
   "theorems": [
    "C35_lowest_terms",
    "C35_zero_denominator",
    "C35_constructor"
   ],
   "note": ""
  },
  {
   "property": "C36",
   "status": "proved",
   "theorems": [
    "C36_add",
    "C36_sub",
    "C36_mul",
    "C36_div",
    "C36_neg_abs",
    "C36_assignment",
    "C36_programs"
   ],
   "note": "The condition for overflow is exact (necessary and sufficient). C36_programs covers whole programs."
  },
  {
   "property": "C37",
   "status": "proved",
   "theorems": [
    "C37_small_operands"
   ],
   "note": ""
  },
  {
   "property": "C38",
   "status": "partial",
   "theorems": [
    "C38_total_refuted"
   ],
   "note": "REFUTED: 1/65536 - 1/65536, 65537/65536 / 65537/65536 and others overflow although operands and results fit. C36 gives the exact condition, C37 a safe range."
  },
  {
   "property": "C39",
   "status": "proved",
   "theorems": [
    "C39_order"
   ],
   "note": ""
  },
  {
   "property": "C40",
   "status": "proved",
   "theorems": [
    "C40_equality_moderate",
    "C40_zero_test"
   ],
   "note": ""
  },
  {
   "property": "C41",
   "status": "partial",
   "theorems": [
    "C41_exact",
    "C41_equivalence",
    "C41_between",
    "C41_close",
    "C41_equality_refuted",
    "C41_equal_rationals",
    "C41_hash"
   ],
   "note": "REFUTED: 2147483647/2147483646 == 2147483646/2147483645 through double. Equal rationals do compare equal and hash alike; C40 gives the range where == is right. C41_exact: == holds exactly when both round to the same double; it is still an equivalence (C41_equivalence), and equal Fractions are close (C41_close)."
  },
  {
   "property": "C42",
   "status": "proved",
   "theorems": [
    "C42_remainder",
    "C42_remainder_unique"
   ],
   "note": ""
  },
  {
   "property": "C43",
   "status": "proved",
   "theorems": [
    "C43_gcd",
    "C43_lcm",
    "C43_gcd_unique",
    "C43_lcm_unique"
   ],
   "note": "Termination proved for all operands; a safe range (common denominator and scaled numerators at most 46340) is given."
  },
  {
   "property": "C44",
   "status": "proved",
   "theorems": [
    "C44_text",
    "C44_round_trip",
    "C44_read_whole",
    "C44_read_quotient",
    "C44_read_back"
   ],
   "note": ""
  },
  {
   "property": "C45",
   "status": "proved",
   "theorems": [
    "C45_bad_start",
    "C45_bad_separator",
    "C45_bad_denominator",
    "C45_bad_trailing"
   ],
   "note": ""
  },
  {
   "property": "C46",
   "status": "partial",
   "theorems": [
    "C46_terminates_refuted"
   ],
   "note": "REFUTED: at end of input the skipping loop never ends. The diverging streams are characterised exactly."
  },
  {
   "property": "C47",
   "status": "proved",
   "theorems": [
    "C47_read",
    "C47_write"
   ],
   "note": ""
  },
  {
   "property": "C48",
   "status": "proved",
   "theorems": [
    "C48_insert",
    "C48_remove",
    "C48_remove_after_insert"
   ],
   "note": ""
  },
  {
   "property": "C49",
   "status": "proved",
   "theorems": [
    "C49_sizes",
    "C49_append",
    "C49_append_list"
   ],
   "note": ""
  },
  {
   "property": "C50",
   "status": "proved",
   "theorems": [
    "C50_repetition",
    "C50_assignment"
   ],
   "note": ""
  },
  {
   "property": "C51",
   "status": "partial",
   "theorems": [
    "C51_repetition_overflow_refuted"
   ],
   "note": "REFUTED: 65536 elements times 32768 overflows int in the multiplication done before the check. The exact condition is proved."
  },
  {
   "property": "C52",
   "status": "proved",
   "theorems": [
    "C52_minus",
    "C52_divide"
   ],
   "note": "Stated for an arbitrary ==. Relies on move being copy inside std::remove, which only matters for aliased arguments (C53)."
  },
  {
   "property": "C53",
   "status": "partial",
   "theorems": [
    "C53_divide_by_own_element_refuted",
    "C53_late_element",
    "C53_last_element",
    "C53_overwritten",
    "C53_right_exactly"
   ],
   "note": "REFUTED: [1,2,1,3] /= list[0] leaves [2,1,3]. Proved right when at most i elements are kept, so always for list[-1]."
  },
  {
   "property": "C54",
   "status": "proved",
   "theorems": [
    "C54_left",
    "C54_right",
    "C54_right_INT_MIN",
    "C54_right_undoes_left",
    "C54_left_undoes_right",
    "C54_full_turns",
    "C54_rotated_unique"
   ],
   "note": ""
  },
  {
   "property": "C55",
   "status": "proved",
   "theorems": [
    "C55_uniquify",
    "C55_distinct",
    "C55_same_elements",
    "C55_order"
   ],
   "note": ""
  },
  {
   "property": "C56",
   "status": "proved",
   "theorems": [
    "C56_sort",
    "C56_stable_sort_unique",
    "C56_reverse"
   ],
   "note": "std::stable_sort is modelled by insertion sort; C56_stable_sort_unique shows any stable sort gives the same result."
  },
  {
   "property": "C57",
   "status": "proved",
   "theorems": [
    "C57_slice",
    "C57_ordinary_steps_fit",
    "C57_slice_unique"
   ],
   "note": ""
  },
  {
   "property": "C58",
   "status": "partial",
   "theorems": [
    "C58_slice_every_step_refuted"
   ],
   "note": "REFUTED: [1,2].slice(1,2,INT_MAX) overflows. C57_slice gives the exact condition."
  },
  {
   "property": "C59",
   "status": "proved",
   "theorems": [
    "C59_erase",
    "C59_valid_ranges"
   ],
   "note": ""
  },
  {
   "property": "C60",
   "status": "partial",
   "theorems": [
    "C60_erase_inverted_refuted"
   ],
   "note": "REFUTED: [1,2,3].erase(2,1) calls vector::erase with an inverted range."
  },
  {
   "property": "C61",
   "status": "proved",
   "theorems": [
    "C61_index",
    "C61_contains",
    "C61_count",
    "C61_find",
    "C61_first_unique"
   ],
   "note": ""
  },
  {
   "property": "C62",
   "status": "partial",
   "theorems": [
    "C62_search_beyond_end_refuted"
   ],
   "note": "REFUTED: [7].index(7, 2) forms an iterator past the end. C61_index gives the exact condition."
  },
  {
   "property": "C63",
   "status": "proved",
   "theorems": [
    "C63_filter",
    "C63_map",
    "C63_map_calls"
   ],
   "note": "The in-place copy_if loop is taken to run front to back; C107 states the formal precondition problem."
  },
  {
   "property": "C64",
   "status": "proved",
   "theorems": [
    "C64_equality",
    "C64_lexicographic"
   ],
   "note": ""
  },
  {
   "property": "C65",
   "status": "proved",
   "theorems": [
    "C65_print"
   ],
   "note": ""
  },
  {
   "property": "C66",
   "status": "proved",
   "theorems": [
    "C66_histories",
    "C66_otherwise_undefined"
   ],
   "note": "Exact: a program has an abstract run iff the code runs without undefined behaviour. The extend statement is guarded by the client against passing INT_MAX."
  },
  {
   "property": "C67",
   "status": "proved",
   "theorems": [
    "C67_histories",
    "C67_otherwise_undefined",
    "C67_undefined_only",
    "C67_empty"
   ],
   "note": "Exact: a program has an abstract run iff the code runs without undefined behaviour. The extend statements are guarded by the client against passing INT_MAX."
  },
  {
   "property": "C68",
   "status": "proved",
   "theorems": [
    "C68_queue",
    "C68_queue_other_way",
    "C68_stack"
   ],
   "note": ""
  },
  {
   "property": "C69",
   "status": "proved",
   "theorems": [
    "C69_left",
    "C69_right",
    "C69_left_then_right",
    "C69_right_then_left",
    "C69_right_by_int_min"
   ],
   "note": ""
  },
  {
   "property": "C70",
   "status": "proved",
   "theorems": [
    "C70_histories",
    "C70_histories_complete",
    "C70_always_defined",
    "C70_add_remove",
    "C70_contains",
    "C70_extend_clear_construct"
   ],
   "note": "Both directions: the code refines mathematical sets and realises every abstract run. Statements that could pass INT_MAX elements are guarded by the client. Moved-from sets are empty; extending a set from its own range is undefined behaviour of std::set::insert."
  },
  {
   "property": "C71",
   "status": "proved",
   "theorems": [
    "C71_and",
    "C71_or",
    "C71_sub",
    "C71_xor",
    "C71_in_place"
   ],
   "note": ""
  },
  {
   "property": "C72",
   "status": "proved",
   "theorems": [
    "C72_included",
    "C72_properly_included",
    "C72_converses",
    "C72_equal"
   ],
   "note": ""
  },
  {
   "property": "C73",
   "status": "proved",
   "theorems": [
    "C73_extrema_and_pop"
   ],
   "note": ""
  },
  {
   "property": "C74",
   "status": "proved",
   "theorems": [
    "C74_histories",
    "C74_histories_complete",
    "C74_otherwise_undefined",
    "C74_undefined_only",
    "C74_lookup",
    "C74_assign",
    "C74_remove"
   ],
   "note": "Both directions: the code refines finite maps and realises every abstract run. Statements that could pass INT_MAX entries are guarded by the client."
  },
  {
   "property": "C75",
   "status": "proved",
   "theorems": [
    "C75_add",
    "C75_extend_and_construct"
   ],
   "note": "A dict of INT_MAX entries throws instead; see C118."
  },
  {
   "property": "C76",
   "status": "proved",
   "theorems": [
    "C76_views"
   ],
   "note": ""
  },
  {
   "property": "C77",
   "status": "partial",
   "theorems": [
    "C77_empty_extrema_refuted"
   ],
   "note": "REFUTED: min() and max() dereference begin()/rbegin() of an empty std::map, undefined behaviour."
  },
  {
   "property": "C78",
   "status": "proved",
   "theorems": [
    "C78_extrema_and_pop"
   ],
   "note": ""
  },
  {
   "property": "C79",
   "status": "proved",
   "theorems": [
    "C79_find",
    "C79_find_beyond",
    "C79_contains",
    "C79_unique"
   ],
   "note": ""
  },
  {
   "property": "C80",
   "status": "partial",
   "theorems": [
    "C80_find_undefined_refuted",
    "C80_find_undefined_exact"
   ],
   "note": "REFUTED: a negative start is converted to a huge unsigned offset and stop < start gives an inverted range; exactly these ranges are undefined."
  },
  {
   "property": "C81",
   "status": "proved",
   "theorems": [
    "C81_count"
   ],
   "note": ""
  },
  {
   "property": "C82",
   "status": "proved",
   "theorems": [
    "C82_to_integer",
    "C82_literal_unique"
   ],
   "note": "Valid for every policy on iterator use inside Int, because all intermediate sums have non-negative operands."
  },
  {
   "property": "C83",
   "status": "proved",
   "theorems": [
    "C83_language"
   ],
   "note": ""
  },
  {
   "property": "C84",
   "status": "proved",
   "theorems": [
    "C84_value",
    "C84_digits_exact",
    "C84_integer_exact"
   ],
   "note": "std::pow is a parameter. The exactness statements carry the needed facts about pow as premises."
  },
  {
   "property": "C85",
   "status": "partial",
   "theorems": [
    "C85_exact",
    "C85_short_mantissa",
    "C85_short",
    "C85_never_nan_refuted"
   ],
   "note": "REFUTED: \"0e400\" gives 0 * inf = NaN, given pow(10,400) = inf. C85_exact: the three ways to NaN; C85_short_mantissa, C85_short: with at most 300 digits only a zero whose exponent overflows."
  },
  {
   "property": "C86",
   "status": "proved",
   "theorems": [
    "C86_replace",
    "C86_replace_empty",
    "C86_pieces"
   ],
   "note": ""
  },
  {
   "property": "C87",
   "status": "proved",
   "theorems": [
    "C87_split",
    "C87_join_of_split",
    "C87_join",
    "C87_empty_separator"
   ],
   "note": ""
  },
  {
   "property": "C88",
   "status": "proved",
   "theorems": [
    "C88_split_of_join"
   ],
   "note": ""
  },
  {
   "property": "C89",
   "status": "proved",
   "theorems": [
    "C89_strip_blank",
    "C89_strip_char",
    "C89_unique"
   ],
   "note": ""
  },
  {
   "property": "C90",
   "status": "partial",
   "theorems": [
    "C90_strip_high_bytes_refuted",
    "C90_strip_high_bytes_exact"
   ],
   "note": "REFUTED: plain char is signed, so every byte from 128 up compares <= 0x20 and is stripped."
  },
  {
   "property": "C91",
   "status": "proved",
   "theorems": [
    "C91_letters",
    "C91_idempotent"
   ],
   "note": ""
  },
  {
   "property": "C92",
   "status": "partial",
   "theorems": [
    "C92_others_changed_refuted",
    "C92_lower_exact",
    "C92_upper_exact"
   ],
   "note": "REFUTED: bit 5 is set or cleared on every byte; \"1\" upper-cases to 0x11 and \"[\" lower-cases to \"{\"."
  },
  {
   "property": "C93",
   "status": "proved",
   "theorems": [
    "C93_shl",
    "C93_shr",
    "C93_shr_min",
    "C93_undo",
    "C93_reverse"
   ],
   "note": ""
  },
  {
   "property": "C94",
   "status": "proved",
   "theorems": [
    "C94_index",
    "C94_slice",
    "C94_erase",
    "C94_times"
   ],
   "note": "len < INT_MAX for slice and erase, which compute size()+1."
  },
  {
   "property": "C95",
   "status": "proved",
   "theorems": [
    "C95_starts_with",
    "C95_ends_with"
   ],
   "note": ""
  },
  {
   "property": "C96",
   "status": "proved",
   "theorems": [
    "C96_format",
    "C96_unique"
   ],
   "note": "Arguments are given as the text their operator<< writes."
  },
  {
   "property": "C97",
   "status": "proved",
   "theorems": [
    "C97_print",
    "C97_line",
    "C97_lines",
    "C97_last_line",
    "C97_end"
   ],
   "note": "With writes through const_cast allowed (ConstBenign); see C121."
  },
  {
   "property": "C98",
   "status": "proved",
   "theorems": [
    "C98_equality",
    "C98_inequality",
    "C98_exact",
    "C98_symmetric"
   ],
   "note": ""
  },
  {
   "property": "C99",
   "status": "proved",
   "theorems": [
    "C99_get",
    "C99_size",
    "C99_rest",
    "C99_print"
   ],
   "note": ""
  },
  {
   "property": "C100",
   "status": "proved",
   "theorems": [
    "C100_add",
    "C100_sub",
    "C100_mul",
    "C100_div",
    "C100_pos",
    "C100_neg",
    "C100_conjugate",
    "C100_add_commutes",
    "C100_mul_commutes",
    "C100_neg_involution",
    "C100_conjugate_involution"
   ],
   "note": "Every operation rounded on its own: no contraction to fused multiply-add. Formulas for finite parts without overflow; commutativity and involutions for all doubles."
  },
  {
   "property": "C101",
   "status": "partial",
   "theorems": [
    "C101_equality",
    "C101_symmetric",
    "C101_reflexive",
    "C101_coarse",
    "C101_coarse_transitive",
    "C101_coarse_hash",
    "C101_transitive_refuted",
    "C101_reflexive_refuted",
    "C101_hash_refuted"
   ],
   "note": "REFUTED: not transitive (0, 2^-53, 2^-52), not reflexive on infinities and NaN, equal values hash differently. What == tests is proved exactly; on parts that are zero or at least 1 in magnitude all three hold."
  },
  {
   "property": "C102",
   "status": "partial",
   "theorems": [
    "C102_throws_exactly",
    "C102_zero",
    "C102_nothing_else",
    "C102_nonfinite",
    "C102_throws_only_on_zero_refuted"
   ],
   "note": "REFUTED: 2^-60 is taken for zero. Throws exactly when both parts are below 2^-52 in magnitude."
  },
  {
   "property": "C103",
   "status": "proved",
   "theorems": [
    "C103_add",
    "C103_sub",
    "C103_mul",
    "C103_neg",
    "C103_conjugate",
    "C103_equality",
    "C103_div"
   ],
   "note": ""
  },
  {
   "property": "C104",
   "status": "partial",
   "theorems": [
    "C104_rejects_garbage_refuted"
   ],
   "note": "REFUTED: 99999999999z reads as 2147483647, +z as 0 (failbit set, no exception). C44 and C45 are the proved parts."
  },
  {
   "property": "C105",
   "status": "partial",
   "theorems": [
    "C105_exact",
    "C105_read_loop_refuted",
    "C105_read_loop_hang_refuted"
   ],
   "note": "REFUTED: failbit is set after the last token when the input ends there, so the last fraction is lost; with white space at the end the loop hangs. C105_exact: exactly these two cases. C44_read_back is the proved counted loop."
  },
  {
   "property": "C106",
   "status": "partial",
   "theorems": [
    "C106_erase_full_list_refuted",
    "C106_slice_full_list_refuted",
    "C106_erase_full_list",
    "C106_slice_full_list"
   ],
   "note": "REFUTED: size() + 1 overflows for every call on a list of INT_MAX elements."
  },
  {
   "property": "C107",
   "status": "partial",
   "theorems": [
    "C107_filter_overlap_refuted"
   ],
   "note": "REFUTED under the strict reading: input and output ranges of std::copy_if overlap for every non-empty list."
  },
  {
   "property": "C108",
   "status": "partial",
   "theorems": [
    "C108_exact",
    "C108_extend_wraps_refuted"
   ],
   "note": "REFUTED: extending INT_MAX elements by one gives size() == INT_MIN. C108_exact: it is right exactly up to INT_MAX elements."
  },
  {
   "property": "C109",
   "status": "partial",
   "theorems": [
    "C109_exact",
    "C109_append_that_fits_refuted",
    "C109_append_small"
   ],
   "note": "REFUTED: INT_MAX - 1 elements += {} throws. C109_exact: which lengths are accepted."
  },
  {
   "property": "C110",
   "status": "partial",
   "theorems": [
    "C110_extend_wraps_refuted",
    "C110_extend_that_fits",
    "C110_exact"
   ],
   "note": "REFUTED: extending INT_MAX elements by one gives size() == INT_MIN. C110_exact: truthful exactly if the total fits."
  },
  {
   "property": "C111",
   "status": "proved",
   "theorems": [
    "C111_equality",
    "C111_lexicographic"
   ],
   "note": ""
  },
  {
   "property": "C112",
   "status": "partial",
   "theorems": [
    "C112_chain",
    "C112_sets_of_sets_refuted",
    "C112_not_an_order_refuted"
   ],
   "note": "REFUTED: Set<Set<int>>{{1}, {2}} has one element, because operator< of Set is proper inclusion and {1}, {2} are incomparable. Holds when of any two elements one includes the other."
  },
  {
   "property": "C113",
   "status": "partial",
   "theorems": [
    "C113_exact",
    "C113_add_present_full_refuted"
   ],
   "note": "REFUTED: add checks for a full set before looking for the element. C113_exact: it throws exactly if the set is full."
  },
  {
   "property": "C114",
   "status": "partial",
   "theorems": [
    "C114_exact",
    "C114_sizes_wrap_refuted",
    "C114_sizes_that_fit"
   ],
   "note": "REFUTED: a set of INT_MAX elements united with one more has size() == INT_MIN. C114_exact: truthful exactly if the total fits."
  },
  {
   "property": "C115",
   "status": "proved",
   "theorems": [
    "C115_algebra"
   ],
   "note": ""
  },
  {
   "property": "C116",
   "status": "proved",
   "theorems": [
    "C116_construction",
    "C116_increasing_range"
   ],
   "note": ""
  },
  {
   "property": "C117",
   "status": "proved",
   "theorems": [
    "C117_equality"
   ],
   "note": ""
  },
  {
   "property": "C118",
   "status": "partial",
   "theorems": [
    "C118_add_present_full_refuted",
    "C118_exact"
   ],
   "note": "REFUTED: add checks for a full dict before looking for the key. C118_exact: it throws exactly if the dict is full."
  },
  {
   "property": "C119",
   "status": "partial",
   "theorems": [
    "C119_extend_wraps_refuted",
    "C119_exact"
   ],
   "note": "REFUTED: extending INT_MAX entries by one new key gives size() == INT_MIN. C119_exact: truthful exactly if the number of keys afterwards is an int."
  },
  {
   "property": "C120",
   "status": "partial",
   "theorems": [
    "C120_replace_empty_any_refuted",
    "C120_replace_empty_any_exact"
   ],
   "note": "REFUTED: the stream iterator takes new as a C string, so it is cut at the first null character (except in front)."
  },
  {
   "property": "C121",
   "status": "partial",
   "theorems": [
    "C121_assignment_refuted",
    "C121_extraction_refuted",
    "C121_assignment_benign"
   ],
   "note": "REFUTED: the member is declared const std::string and is written through const_cast."
  },
  {
   "property": "C122",
   "status": "partial",
   "theorems": [
    "C122_to_decimal_defined_refuted",
    "C122_to_decimal_defined_exact"
   ],
   "note": "REFUTED: exp_part = exp_part * 10 + digit overflows int; exactly for texts that begin with a literal whose exponent exceeds INT_MAX."
  },
  {
   "property": "C123",
   "status": "partial",
   "theorems": [
    "C123_exact",
    "C123_malformed_full_refuted"
   ],
   "note": "REFUTED: leaving the loop sets i = size() and the for statement then increments it. C123_exact: exactly which strings of INT_MAX characters."
  },
  {
   "property": "C124",
   "status": "proved",
   "theorems": [
    "C124_order",
    "C124_equality",
    "C124_hash"
   ],
   "note": ""
  },
  {
   "property": "C125",
   "status": "proved",
   "theorems": [
    "C125_nearest_decimals",
    "C125_nearest_scaled"
   ],
   "note": ""
  },
  {
   "property": "C126",
   "status": "proved",
   "theorems": [
    "C126_one",
    "C126_many"
   ],
   "note": "The value of a literal is what strtod returns for it (argument of the model)."
  },
  {
   "property": "C127",
   "status": "partial",
   "theorems": [
    "C127_terminates_refuted"
   ],
   "note": "REFUTED: hangs exactly on exhausted, failed or blank streams."
  },
  {
   "property": "C128",
   "status": "partial",
   "theorems": [
    "C128_reject_start",
    "C128_reject_after_imaginary",
    "C128_reject_not_j",
    "C128_reject_after_j",
    "C128_junk_refuted",
    "C128_no_j_refuted",
    "C128_comment_refuted"
   ],
   "note": "REFUTED: 1z+2j and 1+2 read the uninitialised char c."
  },
  {
   "property": "C129",
   "status": "partial",
   "theorems": [
    "C129_outcome_exact",
    "C129_failbit",
    "C129_two_points_refuted",
    "C129_space_refuted",
    "C129_lone_sign_refuted"
   ],
   "note": "REFUTED: 1.5.5j and 1+2 j are accepted, + sets failbit only. The outcome on every text is characterised exactly."
  },
  {
   "property": "C130",
   "status": "partial",
   "theorems": [
    "C130_round_trip_refuted"
   ],
   "note": "REFUTED: the opening bracket is never accepted."
  },
  {
   "property": "C131",
   "status": "partial",
   "theorems": [
    "C131_zero_exponent",
    "C131_zero_base",
    "C131_polar",
    "C131_tiny_refuted"
   ],
   "note": "REFUTED near zero: 2^-60 is taken for zero as base and as exponent. <cmath> functions are arguments."
  },
  {
   "property": "C132",
   "status": "proved",
   "theorems": [
    "C132_stored",
    "C132_unchanged",
    "C132_div_by_zero",
    "C132_moved_from"
   ],
   "note": ""
  },
  {
   "property": "C133",
   "status": "proved",
   "theorems": [
    "C133_div_self",
    "C133_mul_one",
    "C133_div_one",
    "C133_add_zero",
    "C133_sub_self"
   ],
   "note": ""
  },
  {
   "property": "C134",
   "status": "partial",
   "theorems": [
    "C134_large_divisor_refuted",
    "C134_all_large_divisors_refuted"
   ],
   "note": "REFUTED: |b|**2 overflows; every divisor with a part of magnitude 2^512 or more gives only zeros and NaN. C137 covers the rest."
  },
  {
   "property": "C135",
   "status": "proved",
   "theorems": [
    "C135_text"
   ],
   "note": ""
  },
  {
   "property": "C136",
   "status": "partial",
   "theorems": [
    "C136_loop_real_refuted",
    "C136_loop_imaginary_refuted",
    "C136_loop_both_refuted"
   ],
   "note": "REFUTED: a real number at the end is dropped; after any other number at the end the loop hangs."
  },
  {
   "property": "C137",
   "status": "proved",
   "theorems": [
    "C137_mul",
    "C137_div"
   ],
   "note": ""
  },
  {
   "property": "C138",
   "status": "proved",
   "theorems": [
    "C138_text_determines_value",
    "C138_tuples"
   ],
   "note": "A set or dictionary is its sequence of elements. Complex is left out: doubles are printed with 6 digits."
  },
  {
   "property": "C139",
   "status": "partial",
   "theorems": [
    "C139_containers_of_strings_refuted",
    "C139_dictionaries_refuted",
    "C139_exact",
    "C139_deque_exact",
    "C139_otherwise"
   ],
   "note": "REFUTED: quotes are not escaped: [\"a\\\", \\\"b\"] has one element or two. C139_exact: every List or Deque with two elements or more prints as another one does. C139_otherwise: among containers whose strings have no comma right behind a quote the text determines the elements."
  },
  {
   "property": "C140",
   "status": "proved",
   "theorems": [
    "C140_one",
    "C140_many",
    "C140_tuple"
   ],
   "note": ""
  },
  {
   "property": "C141",
   "status": "partial",
   "theorems": [
    "C141_fill",
    "C141_rest",
    "C141_fill_refuted"
   ],
   "note": "REFUTED: an Int of two digits or more leaves the fill character '0'; that is the only change."
  },
  {
   "property": "C142",
   "status": "partial",
   "theorems": [
    "C142_exact",
    "C142_whole",
    "C142_width_refuted"
   ],
   "note": "REFUTED: only the first piece is padded: the sign or first digit of an Int, the opening bracket, the numerator."
  },
  {
   "property": "C143",
   "status": "partial",
   "theorems": [
    "C143_exact",
    "C143_base_refuted"
   ],
   "note": "REFUTED: hex writes the decimal digits; oct writes a leading 8 or 9 as 10 or 11, so 80 prints as 100."
  },
  {
   "property": "C144",
   "status": "proved",
   "theorems": [
    "C144_list",
    "C144_deque",
    "C144_set",
    "C144_dict",
    "C144_int",
    "C144_fraction",
    "C144_complex",
    "C144_read_int",
    "C144_read_fraction",
    "C144_read_complex"
   ],
   "note": "Element operations are pure functions in the model; an exception thrown by the element type itself is not covered."
  },
  {
   "property": "C145",
   "status": "proved",
   "theorems": [
    "C145_agree",
    "C145_accepted",
    "C145_printed",
    "C145_blanks"
   ],
   "note": "Only leading and trailing blanks separate the two: Str skips them, Int throws."
  },
  {
   "property": "C146",
   "status": "proved",
   "theorems": [
    "C146_factor",
    "C146_error"
   ],
   "note": "std::pow is an argument; the hypothesis on it is met by a sample implementation. Also stated for any accuracy K of pow up to 2."
  },
  {
   "property": "C147",
   "status": "partial",
   "theorems": [
    "C147_nearest_refuted"
   ],
   "note": "REFUTED: 3e-1 gives 3*0.1, one unit above the double nearest to 0.3. C125 gives a class of literals where it holds, C146 bounds the error."
  },
  {
   "property": "C148",
   "status": "proved",
   "theorems": [
    "C148_value",
    "C148_same_value",
    "C148_strict",
    "C148_ring_laws",
    "C148_quotient_laws",
    "C148_truncation"
   ],
   "note": "The out-of-bounds access of C06 read as harmless; otherwise the same or undefined."
  },
  {
   "property": "C149",
   "status": "proved",
   "theorems": [
    "C149_value",
    "C149_same_value",
    "C149_ring_laws",
    "C149_field_laws"
   ],
   "note": ""
  },
  {
   "property": "C150",
   "status": "partial",
   "theorems": [
    "C150_regrouping_refuted",
    "C150_exact"
   ],
   "note": "REFUTED: INT_MAX + (1 + -1) is INT_MAX, (INT_MAX + 1) + -1 overflows. C150_exact: when it does."
  },
  {
   "property": "C151",
   "status": "proved",
   "theorems": [
    "C151_plus",
    "C151_times",
    "C151_count",
    "C151_removal",
    "C151_search",
    "C151_reverse",
    "C151_slice_backward",
    "C151_rotation",
    "C151_sort",
    "C151_uniquify"
   ],
   "note": "Sizes up to INT_MAX - 3 where + is involved (see C109)."
  },
  {
   "property": "C152",
   "status": "partial",
   "theorems": [
    "C152_split_refuted",
    "C152_split_otherwise"
   ],
   "note": "REFUTED: slice(size, size) throws IndexOutOfRange, also on the empty list; every other position works."
  },
  {
   "property": "C153",
   "status": "proved",
   "theorems": [
    "C153_search",
    "C153_replace",
    "C153_replace_back",
    "C153_reverse_plus",
    "C153_reverse_ends",
    "C153_slices",
    "C153_rotation",
    "C153_times",
    "C153_strip",
    "C153_case_change"
   ],
   "note": ""
  },
  {
   "property": "C154",
   "status": "proved",
   "theorems": [
    "C154_factorial",
    "C154_pow",
    "C154_pow_mod",
    "C154_log"
   ],
   "note": "Counts loop tests, that is rounds plus one; the cost of one round is not modelled."
  },
  {
   "property": "C155",
   "status": "proved",
   "theorems": [
    "C155_prime",
    "C155_composite",
    "C155_small"
   ],
   "note": ""
  },
  {
   "property": "C156",
   "status": "proved",
   "theorems": [
    "C156_bound"
   ],
   "note": ""
  },
  {
   "property": "C157",
   "status": "proved",
   "theorems": [
    "C157_bound"
   ],
   "note": "For n + 1 a square from 9 on the loop does not end at all (C17)."
  },
  {
   "property": "C158",
   "status": "partial",
   "theorems": [
    "C158_append_refuted",
    "C158_list_extend_refuted",
    "C158_deque_extend_refuted",
    "C158_set_extend_refuted",
    "C158_dict_extend_refuted",
    "C158_other_ways"
   ],
   "note": "REFUTED: the standard requires that the iterators do not point into the container. l + l and l * 2 work."
  },
  {
   "property": "C159",
   "status": "partial",
   "theorems": [
    "C159_chain",
    "C159_equivalent_refuted",
    "C159_cycle_refuted"
   ],
   "note": "REFUTED: incomparable sets count as equivalent, and the lexicographic order over them even has cycles. C159_chain: it holds where of any two of the Sets one includes the other."
  },
  {
   "property": "C160",
   "status": "partial",
   "theorems": [
    "C160_sort_refuted",
    "C160_chain"
   ],
   "note": "REFUTED: operator< of Set is no strict weak order, so std::stable_sort is undefined. Holds when of any two sets one includes the other."
  },
  {
   "property": "C161",
   "status": "partial",
   "theorems": [
    "C161_chain",
    "C161_keys_refuted"
   ],
   "note": "REFUTED: {1} and {2} are one key, for the same reason. C161_chain: it holds where of any two of the keys one includes the other."
  },
  {
   "property": "C162",
   "status": "proved",
   "theorems": [
    "C162_sequences",
    "C162_synthesised",
    "C162_pairs"
   ],
   "note": ""
  },
  {
   "property": "C163",
   "status": "proved",
   "theorems": [
    "C163_correctly_rounded",
    "C163_nearest",
    "C163_error",
    "C163_monotone",
    "C163_exact",
    "C163_sign"
   ],
   "note": ""
  },
  {
   "property": "C164",
   "status": "proved",
   "theorems": [
    "C164_trichotomy"
   ],
   "note": ""
  },
  {
   "property": "C165",
   "status": "partial",
   "theorems": [
    "C165_hash_refuted",
    "C165_moderate"
   ],
   "note": "REFUTED: == compares doubles, the hash uses numerator and denominator. Holds when the cross products are below 2^52."
  },
  {
   "property": "C166",
   "status": "proved",
   "theorems": [
    "C166_lists",
    "C166_deques",
    "C166_sets",
    "C166_dicts"
   ],
   "note": "Stated over the program language of C66, C67, C70 and C74; user functions of List::map and filter must commute with f."
  },
  {
   "property": "C167",
   "status": "proved",
   "theorems": [
    "C167_names",
    "C167_lists",
    "C167_deques",
    "C167_sets",
    "C167_dicts"
   ],
   "note": ""
  },
  {
   "property": "C168",
   "status": "partial",
   "theorems": [
    "C168_order_refuted",
    "C168_uniquify_refuted",
    "C168_small_order",
    "C168_small_total",
    "C168_small_lists",
    "C168_small_sets",
    "C168_small_dicts"
   ],
   "note": "REFUTED: comparing large parts overflows, and == cannot tell neighbours apart. Holds for parts up to 32767."
  },
  {
   "property": "C169",
   "status": "proved",
   "theorems": [
    "C169_total"
   ],
   "note": ""
  },
  {
   "property": "C170",
   "status": "partial",
   "theorems": [
    "C170_uniquify_refuted",
    "C170_find_refuted"
   ],
   "note": "REFUTED: == has an absolute tolerance, so it is not transitive, and it is false of infinity and itself."
  },
  {
   "property": "C171",
   "status": "partial",
   "theorems": [
    "C171_order_refuted",
    "C171_nan_list_refuted",
    "C171_nan_set_refuted",
    "C171_zero_set_refuted",
    "C171_plain_total",
    "C171_plain_lists",
    "C171_plain_sets",
    "C171_plain_dicts"
   ],
   "note": "REFUTED: NaN is equivalent to everything under < and equal to nothing; -0.0 and 0.0 are one element. Holds for all other doubles."
  },
  {
   "property": "C172",
   "status": "proved",
   "theorems": [
    "C172_step",
    "C172_run",
    "C172_cases",
    "C172_unique"
   ],
   "note": "to_decimal and reading from a stream are not statements of the language (C83-C87 and C124 treat them). Writes to the const member are read as harmless here; see C174."
  },
  {
   "property": "C173",
   "status": "partial",
   "theorems": [
    "C173_undefined_refuted",
    "C173_undefined_exact"
   ],
   "note": "REFUTED: find, contains and erase with stop < start among others; the theorem lists exactly which."
  },
  {
   "property": "C174",
   "status": "partial",
   "theorems": [
    "C174_declarations",
    "C174_writes_refuted"
   ],
   "note": "REFUTED: str_ is const, so writing to it through const_cast is undefined. Programs that only declare variables are not affected."
  },
  {
   "property": "C175",
   "status": "partial",
   "theorems": [
    "C175_undefined_refuted",
    "C175_list",
    "C175_deque",
    "C175_set",
    "C175_dict"
   ],
   "note": "REFUTED: for each of the four types the theorem gives the exact list: moving or extending a container into itself, shifts by INT_MIN, reversed ranges, extreme slices, min/max of an empty Dict."
  },
  {
   "property": "C176",
   "status": "proved",
   "theorems": [
    "C176_prefix",
    "C176_bad",
    "C176_pieces",
    "C176_default"
   ],
   "note": ""
  },
  {
   "property": "C177",
   "status": "partial",
   "theorems": [
    "C177_width_refuted",
    "C177_kept",
    "C177_int",
    "C177_nothing",
    "C177_not_good"
   ],
   "note": "REFUTED: Fraction and Complex never change the formatting state, so the width hits the next Int. Holds for Int, with the exact state left when there is nothing to read."
  },
  {
   "property": "C178",
   "status": "partial",
   "theorems": [
    "C178_noskipws_refuted",
    "C178_fraction",
    "C178_complex",
    "C178_int_space",
    "C178_int_plain"
   ],
   "note": "REFUTED: an Int behind white space and a space before the j of a Complex. Holds for Fraction; for Complex the only other outcome is an exception."
  },
  {
   "property": "C179",
   "status": "partial",
   "theorems": [
    "C179_base_refuted",
    "C179_octal",
    "C179_hexadecimal",
    "C179_hexadecimal_negative"
   ],
   "note": "REFUTED: operator>> refuses a number that begins with a letter, and negative parts are written modulo 2^32. The theorems give the exact set that survives."
  },
  {
   "property": "C180",
   "status": "partial",
   "theorems": [
    "C180_separates_refuted",
    "C180_exactly",
    "C180_order",
    "C180_few",
    "C180_libstdcxx"
   ],
   "note": "REFUTED: the digits are combined by ^ without regard to position, so permuted digits collide, equal digits cancel and there are at most 2049 values (32 for non-negative Ints with libstdc++)."
  },
  {
   "property": "C181",
   "status": "partial",
   "theorems": [
    "C181_fraction_exactly",
    "C181_complex_exactly",
    "C181_str_exactly",
    "C181_fraction_libstdcxx",
    "C181_fraction_separates",
    "C181_fraction_refuted"
   ],
   "note": "REFUTED for libstdc++: 1/3 and 3/2 collide; exactly the pairs with num^num' = 2*(den^den') do, so never with a common numerator or denominator."
  },
  {
   "property": "C182",
   "status": "proved",
   "theorems": [
    "C182_distinct",
    "C182_prefix",
    "C182_list",
    "C182_deque",
    "C182_set",
    "C182_dict",
    "C182_str",
    "C182_fraction",
    "C182_int"
   ],
   "note": "Over the program languages of C34, C36, C66, C67, C70, C74 and C172; to_decimal, random and the stream operators are not in them."
  },
  {
   "property": "C183",
   "status": "proved",
   "theorems": [
    "C183_arith",
    "C183_queries"
   ],
   "note": "IntWideModel.v repeats the operators with every int counter checked; sums and differences under the benign policy of C06."
  },
  {
   "property": "C184",
   "status": "partial",
   "theorems": [
    "C184_compare_refuted",
    "C184_compare_exact"
   ],
   "note": "REFUTED: int i = chunks_.size() - 1 is negative above 2^31 digits, so the loop is empty and numbers of equal length compare equal. The theorem gives the exact range up to 2^32 digits."
  },
  {
   "property": "C185",
   "status": "partial",
   "theorems": [
    "C185_commutative_refuted",
    "C185_mul_exact",
    "C185_div_exact",
    "C185_add_sub",
    "C185_to_integer"
   ],
   "note": "REFUTED: the counters overflow. Exact for *, / and %; for + and - the theorem gives the cases where a counter must overflow, and exactness up to INT_MAX digits is C183 (between, it depends on how far a carry runs)."
  },
  {
   "property": "C186",
   "status": "partial",
   "theorems": [
    "C186_text_refuted",
    "C186_text_exact"
   ],
   "note": "REFUTED: const int len = strlen(chars) keeps 32 bits of the length. The theorem is exact."
  },
  {
   "property": "C187",
   "status": "proved",
   "theorems": [
    "C187_references",
    "C187_references_complete",
    "C187_otherwise_undefined",
    "C187_undefined_exact",
    "C187_undefined_only",
    "C187_grows",
    "C187_removed",
    "C187_write"
   ],
   "note": "Nodes with addresses that are never used again; pointer-to-const is not distinguished from pointer; a move hands its nodes over as libstdc++ does."
  },
  {
   "property": "C188",
   "status": "partial",
   "theorems": [
    "C188_get_refuted",
    "C188_get_exact"
   ],
   "note": "REFUTED: const V& get(const K&, const V& defaults) returns its argument when the key is absent, so const auto& x = d.get(k, V()) dangles. The theorem is exact."
  },
  {
   "property": "C189",
   "status": "proved",
   "theorems": [
    "C189_iterators",
    "C189_iterators_complete",
    "C189_otherwise_undefined",
    "C189_undefined_exact"
   ],
   "note": "A reverse iterator is its base(); the end iterator of a Dict is unusable after assignment to the Dict or a move from or to it."
  },
  {
   "property": "C190",
   "status": "proved",
   "theorems": [
    "C190_walk",
    "C190_backwards",
    "C190_remove_after_next",
    "C190_remove_before_next",
    "C190_other_end",
    "C190_other_begin"
   ],
   "note": ""
  },
  {
   "property": "C191",
   "status": "proved",
   "theorems": [
    "C191_references",
    "C191_references_complete",
    "C191_otherwise_undefined",
    "C191_undefined_exact",
    "C191_undefined_only",
    "C191_sort",
    "C191_remove",
    "C191_append_own"
   ],
   "note": "ListRefModel.v: objects with addresses; capacities are explicit and `grow` is arbitrary. The container operators that build a new List (+, -, *, /) are not changes of the operands."
  },
  {
   "property": "C192",
   "status": "partial",
   "theorems": [
    "C192_append_refuted",
    "C192_append_exact"
   ],
   "note": "REFUTED: whatever capacities the library chooses, enough appends end the reference. The exact theorem: it survives n appends iff the size plus n is at most the capacity."
  },
  {
   "property": "C193",
   "status": "proved",
   "theorems": [
    "C193_references",
    "C193_references_complete",
    "C193_otherwise_undefined",
    "C193_undefined_exact",
    "C193_undefined_only",
    "C193_pushes",
    "C193_queue",
    "C193_rotate"
   ],
   "note": "DequeRefModel.v: objects with addresses that are never used again; a move hands the objects over."
  },
  {
   "property": "C194",
   "status": "proved",
   "theorems": [
    "C194_calls_total",
    "C194_scan_total",
    "C194_index",
    "C194_contains",
    "C194_index_undefined",
    "C194_count",
    "C194_subtract",
    "C194_divide",
    "C194_filter",
    "C194_map",
    "C194_uniquify",
    "C194_uniquify_total",
    "C194_equal",
    "C194_equal_sizes",
    "C194_pure_search",
    "C194_pure",
    "C194_pure_map",
    "C194_pure_filter"
   ],
   "note": "ListCallModel.v. The order of the calls is that of the loops given by the standard for find, remove, copy_if, for_each and equal, and libstdc++'s for count. The in-place copy_if of filter (formally undefined, C107) is taken as the left-to-right loop. Copying elements does not throw."
  },
  {
   "property": "C195",
   "status": "partial",
   "theorems": [
    "C195_filter_refuted",
    "C195_map_refuted",
    "C195_divide_refuted",
    "C195_strong",
    "C195_readers",
    "C195_basic"
   ],
   "note": "REFUTED: filter, map and /= leave the List partly processed. The theorems give the state exactly (C194), the strong guarantee for -= and uniquify, that the readers change nothing, and the length and contents kept by the rest. Elements moved from keep their value in the model (move = copy), so for /= the state is exact for types whose move is a copy."
  },
  {
   "property": "C196",
   "status": "proved",
   "theorems": [
    "C196_count",
    "C196_subtract",
    "C196_subtract_absent",
    "C196_uniquify",
    "C196_uniquify_same"
   ],
   "note": ""
  },
  {
   "property": "C197",
   "status": "proved",
   "theorems": [
    "C197_tally",
    "C197_words"
   ],
   "note": "ClientModel.v; the client's text is given above each program."
  },
  {
   "property": "C198",
   "status": "proved",
   "theorems": [
    "C198_sort_uniquify",
    "C198_uniquify_size"
   ],
   "note": ""
  },
  {
   "property": "C199",
   "status": "partial",
   "theorems": [
    "C199_telescope_refuted",
    "C199_telescope"
   ],
   "note": "REFUTED: += multiplies the denominators before reducing, so step k needs k*k*(k+1) <= INT_MAX. The exact theorem: correct up to 1289 terms, undefined from 1290 on."
  },
  {
   "property": "C200",
   "status": "proved",
   "theorems": [
    "C200_circle",
    "C200_every_second"
   ],
   "note": ""
  },
  {
   "property": "C201",
   "status": "proved",
   "theorems": [
    "C201_digits",
    "C201_unique",
    "C201_ten",
    "C201_one",
    "C201_zero"
   ],
   "note": "Under the Benign policy (the digit loops of int.hpp read one past the end in some subtractions, C06). A std::vector collects the digits."
  },
  {
   "property": "C202",
   "status": "proved",
   "theorems": [
    "C202_iterators",
    "C202_iterators_complete",
    "C202_otherwise_undefined",
    "C202_undefined_exact",
    "C202_undefined_reasons"
   ],
   "note": "ListIterModel.v. An end iterator is taken to be invalid after every member of std::vector that inserts, erases, assigns or moves, also when it changes nothing (an erase of nothing, an insertion of nothing). A reverse iterator is its base()."
  },
  {
   "property": "C203",
   "status": "proved",
   "theorems": [
    "C203_all_in_order",
    "C203_reversed",
    "C203_copying",
    "C203_any_body",
    "C203_range",
    "C203_range_reversed",
    "C203_find",
    "C203_apart"
   ],
   "note": ""
  },
  {
   "property": "C204",
   "status": "partial",
   "theorems": [
    "C204_resize_refuted",
    "C204_remove",
    "C204_append"
   ],
   "note": "REFUTED: every such statement makes the end taken before the loop invalid, whatever the capacity. The theorem covers all statements that give the list a new buffer or may change its size; sort, reverse, map and element assignment are fine (C203)."
  },
  {
   "property": "C205",
   "status": "proved",
   "theorems": [
    "C205_iterators",
    "C205_iterators_complete",
    "C205_otherwise_undefined",
    "C205_undefined_exact",
    "C205_undefined_reasons"
   ],
   "note": "DequeIterModel.v. An insertion of an empty range is taken to end the iterators as any other insertion. A reverse iterator is its base(). The ranges inserted by extend_back and extend_front come from Deques of the program; the client checks the total size before (C110 covers the missing check)."
  },
  {
   "property": "C206",
   "status": "proved",
   "theorems": [
    "C206_all_in_order",
    "C206_reversed",
    "C206_pushing_back",
    "C206_pushing_front",
    "C206_any_body",
    "C206_any_body_reversed",
    "C206_range",
    "C206_range_reversed",
    "C206_extending",
    "C206_apart"
   ],
   "note": ""
  },
  {
   "property": "C207",
   "status": "partial",
   "theorems": [
    "C207_push_ends_refuted",
    "C207_reference_refuted",
    "C207_pop_front",
    "C207_pop_back",
    "C207_drain_refuted"
   ],
   "note": "REFUTED: every push and every extension ends all iterators into the deque, while references stay (C207_push_ends, C207_reference); popping the only element ends the end, so draining a deque up to a saved end() is undefined for every non-empty deque (C207_drain). What holds: pops keep the iterators at the other elements."
  },
  {
   "property": "C208",
   "status": "proved",
   "theorems": [
    "C208_iterators",
    "C208_iterators_complete",
    "C208_otherwise_undefined",
    "C208_undefined_reasons"
   ],
   "note": "SetIterModel.v: nodes with addresses that are never used again; a move hands the nodes over. The end of a set is taken to be invalid after an assignment or a move. A reverse iterator is its base(). The client checks the total size before extend (C110 covers the missing check)."
  },
  {
   "property": "C209",
   "status": "proved",
   "theorems": [
    "C209_all_in_order",
    "C209_reversed",
    "C209_adding",
    "C209_removing",
    "C209_any_body",
    "C209_range",
    "C209_range_from",
    "C209_extending",
    "C209_apart"
   ],
   "note": ""
  },
  {
   "property": "C210",
   "status": "proved",
   "theorems": [
    "C210_survival",
    "C210_moved",
    "C210_filter",
    "C210_closure"
   ],
   "note": ""
  },
  {
   "property": "C211",
   "status": "partial",
   "theorems": [
    "C211_drain_refuted",
    "C211_behind_refuted"
   ],
   "note": "REFUTED: removing the current element is undefined for every non-empty set (C211_drain), and elements added behind the iterator are not visited (C211_behind). What holds is C210."
  },
  {
   "property": "C212",
   "status": "proved",
   "theorems": [
    "C212_whole",
    "C212_quotient",
    "C212_letter",
    "C212_prefix_twice"
   ],
   "note": ""
  },
  {
   "property": "C213",
   "status": "proved",
   "theorems": [
    "C213_run",
    "C213_otherwise_undefined",
    "C213_undefined_reasons",
    "C213_const",
    "C213_const_writes"
   ],
   "note": "StrPtrModel.v. Pointers into a Str are taken to be lost after every assignment to it and every move from it, as the standard allows, also when the characters stay where they are. A declaration of a name that was in use ends the object of that name after the new one was made. Pointers into the Strs of a List<Str> are not covered."
  },
  {
   "property": "C214",
   "status": "proved",
   "theorems": [
    "C214_address",
    "C214_lives",
    "C214_dies"
   ],
   "note": ""
  },
  {
   "property": "C215",
   "status": "proved",
   "theorems": [
    "C215_all",
    "C215_any_body",
    "C215_range",
    "C215_part"
   ],
   "note": ""
  },
  {
   "property": "C216",
   "status": "proved",
   "theorems": [
    "C216_text",
    "C216_end",
    "C216_loop",
    "C216_length",
    "C216_any_body",
    "C216_tail"
   ],
   "note": ""
  },
  {
   "property": "C217",
   "status": "partial",
   "theorems": [
    "C217_data_round_trip_refuted",
    "C217_exact"
   ],
   "note": "REFUTED: Str(const char*) stops at the first null character, while a Str made of a std::string, read, sliced or joined may hold some. What holds: C217_exact, equal exactly without null characters."
  },
  {
   "property": "C218",
   "status": "proved",
   "theorems": [
    "C218_refines",
    "C218_strong",
    "C218_not_swallowed",
    "C218_without"
   ],
   "note": "TreeModel.v, SetTreeModel.v: the containers are search trees of arbitrary shape and the algorithms those of libstdc++ (stl_tree.h); copying elements does not throw. The hint of std::inserter is always the end."
  },
  {
   "property": "C219",
   "status": "partial",
   "theorems": [
    "C219_refuted",
    "C219_dict_refuted",
    "C219_prefix",
    "C219_dict_prefix"
   ],
   "note": "REFUTED: extend has already added the elements in front of the one whose comparison threw (C219_refuted for every comparison that throws). What holds: C219_prefix."
  },
  {
   "property": "C220",
   "status": "proved",
   "theorems": [
    "C220_refines",
    "C220_strong",
    "C220_not_swallowed",
    "C220_without"
   ],
   "note": "TreeModel.v, DictTreeModel.v; see C218. std::pair is compared by way of < only."
  },
  {
   "property": "C221",
   "status": "proved",
   "theorems": [
    "C221_lookup",
    "C221_depth",
    "C221_logarithmic",
    "C221_relations",
    "C221_algebra",
    "C221_extend_sorted",
    "C221_extend",
    "C221_dict"
   ],
   "note": "Rebalancing is not modelled; the logarithmic bounds are for every red-black tree, the others for every tree. The client counts the comparisons."
  },
  {
   "property": "C222",
   "status": "proved",
   "theorems": [
    "C222_operators",
    "C222_constructors",
    "C222_members",
    "C222_iff"
   ],
   "note": "IntMemModel.v: a vector has a capacity and allocates when it grows beyond it, by an arbitrary growth policy; copies allocate exactly. Streams and texts allocate nothing in the model."
  },
  {
   "property": "C223",
   "status": "partial",
   "theorems": [
    "C223_refuted",
    "C223_mul",
    "C223_div",
    "C223_exact",
    "C223_copy",
    "C223_copy_fits",
    "C223_steps",
    "C223_values"
   ],
   "note": "REFUTED: the defaulted copy assignment sets the sign before the digits are copied, *= and /= end with a copy assignment, /= and %= work in place (C223_refuted, C223_mul, C223_div). What holds: C223_exact, C223_copy and C223_steps say what is left; -= and the functions leave the Int as it was."
  },
  {
   "property": "C224",
   "status": "partial",
   "theorems": [
    "C224_refuted",
    "C224_wreck",
    "C224_print",
    "C224_queries",
    "C224_nonzero",
    "C224_repair"
   ],
   "note": "REFUTED: ++, --, = and += on zero set the sign before the digits are stored; what is left has a sign and no digits, and printing it is undefined (C224_refuted, C224_wreck). What holds: C224_nonzero and C224_repair."
  },
  {
   "property": "C225",
   "status": "proved",
   "theorems": [
    "C225_programs",
    "C225_plenty",
    "C225_quiet",
    "C225_unwreckable",
    "C225_strong"
   ],
   "note": "IntMemModel.v; see C222. Programs as in C34, for the policy in which the index one past the end is harmless. Where a variable is left with a sign and no digits, the theorem says which variable and stops there."
  },
  {
   "property": "C226",
   "status": "proved",
   "theorems": [
    "C226_copies",
    "C226_literal",
    "C226_assign",
    "C226_add",
    "C226_sub",
    "C226_mul",
    "C226_div",
    "C226_mod",
    "C226_short",
    "C226_steps",
    "C226_binary",
    "C226_quotient",
    "C226_int"
   ],
   "note": "IntMemModel.v; see C222. Numbers for the policy in which the index one past the end is harmless; the constructor from int is counted for a growth policy that doubles; the functions of number theory are not counted."
  },
  {
   "property": "C227",
   "status": "proved",
   "theorems": [
    "C227_outcome",
    "C227_undefined",
    "C227_eventless",
    "C227_all_well"
   ],
   "note": "ListFailModel.v over FailModel.v: every allocation and every element copy is a numbered event that may fail; moves, comparisons, destructors and the client's actions do not fail. std::vector as in libstdc++; a copy assignment of an element that throws leaves the element as it was."
  },
  {
   "property": "C228",
   "status": "partial",
   "theorems": [
    "C228_copy_refuted",
    "C228_filter_refuted",
    "C228_append_refuted",
    "C228_copy_stopped",
    "C228_filter_stopped",
    "C228_append_stopped",
    "C228_extend_stopped"
   ],
   "note": "REFUTED: the implicit copy assignment and filter assign element by element (C228_copy_refuted, C228_filter_refuted), and inserting a range at the end moves the old elements into the new storage before it copies the range (C228_append_refuted). The C228_..._stopped theorems say exactly what is left."
  },
  {
   "property": "C229",
   "status": "proved",
   "theorems": [
    "C229_unchanged",
    "C229_append"
   ],
   "note": "See C227. steady in ListFailSpec.v lists the statements."
  },
  {
   "property": "C230",
   "status": "proved",
   "theorems": [
    "C230_run",
    "C230_undefined",
    "C230_total"
   ],
   "note": "See C227. Programs as in C66; hrun in ListFailSpec.v is the abstract semantics."
  },
  {
   "property": "C231",
   "status": "proved",
   "theorems": [
    "C231_count",
    "C231_plus",
    "C231_times"
   ],
   "note": "See C227. event_count in ListFailSpec.v; value-initialising an element counts as a copy."
  },
  {
   "property": "C232",
   "status": "proved",
   "theorems": [
    "C232_outcome",
    "C232_eventless",
    "C232_all_well"
   ],
   "note": "DequeFailModel.v over FailModel.v and FailRunModel.v, see C227. Blocks of std::deque are not modelled: how many allocations a call makes is a parameter. Ranges are those of other Deques."
  },
  {
   "property": "C233",
   "status": "partial",
   "theorems": [
    "C233_copy_refuted",
    "C233_copy_stopped"
   ],
   "note": "REFUTED: the implicit copy assignment assigns element by element (C233_copy_refuted). C233_copy_stopped says exactly what is left."
  },
  {
   "property": "C234",
   "status": "proved",
   "theorems": [
    "C234_unchanged"
   ],
   "note": "See C232. dsteady in DequeFailSpec.v excludes only v = w of different variables."
  },
  {
   "property": "C235",
   "status": "proved",
   "theorems": [
    "C235_run",
    "C235_undefined",
    "C235_total"
   ],
   "note": "See C232. Statements as in the Deque programs of DequeModel.v; survives in FailRunSpec.v is the abstract semantics."
  },
  {
   "property": "C236",
   "status": "proved",
   "theorems": [
    "C236_count"
   ],
   "note": "See C232. devent_count in DequeFailSpec.v."
  },
  {
   "property": "C237",
   "status": "proved",
   "theorems": [
    "C237_outcome",
    "C237_eventless",
    "C237_all_well"
   ],
   "note": "SetFailModel.v over FailModel.v and FailRunModel.v, see C227; comparisons do not throw (for those see C218). std::set as in libstdc++: a node is allocated and filled before it is linked, copy assignment takes the old nodes aside first."
  },
  {
   "property": "C238",
   "status": "partial",
   "theorems": [
    "C238_pop_refuted",
    "C238_copy_refuted",
    "C238_extend_refuted",
    "C238_pop_stopped",
    "C238_copy_stopped",
    "C238_extend_stopped"
   ],
   "note": "REFUTED: pop takes the node out of the tree before it copies the element (C238_pop_refuted: the element is lost), the implicit copy assignment empties the tree first (C238_copy_refuted), extend inserts one by one (C238_extend_refuted). The C238_..._stopped theorems say exactly what is left."
  },
  {
   "property": "C239",
   "status": "proved",
   "theorems": [
    "C239_unchanged"
   ],
   "note": "See C237. tsteady in SetFailSpec.v excludes only v = w of different variables, pop and extend."
  },
  {
   "property": "C240",
   "status": "proved",
   "theorems": [
    "C240_run",
    "C240_undefined",
    "C240_total"
   ],
   "note": "See C237. Programs as in C70; zleft in SetFailSpec.v says what a failing statement leaves."
  },
  {
   "property": "C241",
   "status": "proved",
   "theorems": [
    "C241_count"
   ],
   "note": "See C237. tevent_count in SetFailSpec.v; cost is the number of copies one element takes."
  },
  {
   "property": "C242",
   "status": "proved",
   "theorems": [
    "C242_outcome",
    "C242_eventless",
    "C242_all_well"
   ],
   "note": "DictFailModel.v over FailModel.v, FailRunModel.v and SetFailModel.v, see C227 and C237. std::map as in libstdc++; add goes through insert(value_type&&), whose key is const and therefore copied. Ranges given to extend have the element type of the map."
  },
  {
   "property": "C243",
   "status": "partial",
   "theorems": [
    "C243_pop_refuted",
    "C243_copy_refuted",
    "C243_extend_refuted",
    "C243_pop_stopped",
    "C243_copy_stopped",
    "C243_extend_stopped"
   ],
   "note": "REFUTED: pop takes the node out of the tree before it copies key and value (C243_pop_refuted: the entry is lost), the implicit copy assignment empties the tree first (C243_copy_refuted), extend inserts one by one (C243_extend_refuted). The C243_..._stopped theorems say exactly what is left."
  },
  {
   "property": "C244",
   "status": "proved",
   "theorems": [
    "C244_unchanged"
   ],
   "note": "See C242. msteady in DictFailSpec.v excludes only v = w of different variables, pop and extend."
  },
  {
   "property": "C245",
   "status": "proved",
   "theorems": [
    "C245_run",
    "C245_undefined",
    "C245_total"
   ],
   "note": "See C242. Programs as in C74; fleft in DictFailSpec.v says what a failing statement leaves."
  },
  {
   "property": "C246",
   "status": "proved",
   "theorems": [
    "C246_count"
   ],
   "note": "See C242. mevent_count in DictFailSpec.v."
  },
  {
   "property": "C247",
   "status": "partial",
   "theorems": [
    "C247_exact",
    "C247_int",
    "C247_showpos_refuted"
   ],
   "note": "REFUTED: an Int prints its minus sign and then its leading digit as an int, which std::showpos gives a plus sign of its own, so -12 is printed as -+12; and 0 is printed as 0, not +0 (C247_showpos_refuted). C247_exact is what every type prints, C247_int when an Int agrees with int. OStreamModel.v."
  },
  {
   "property": "C248",
   "status": "proved",
   "theorems": [
    "C248_outcome",
    "C248_eventless",
    "C248_all_well"
   ],
   "note": "StrFailModel.v over FailModel.v: std::string of libstdc++ with its room for 15 characters in the object; every allocation is a numbered event that may fail. xends in StrFailSpec.v says how a statement may end."
  },
  {
   "property": "C249",
   "status": "partial",
   "theorems": [
    "C249_refuted",
    "C249_exact",
    "C249_format",
    "C249_replace"
   ],
   "note": "REFUTED: std::ostringstream catches std::bad_alloc and sets badbit, which format and replace never look at, so they return a text cut off after 15 or 512 * 2^i characters of the stream (C249_refuted, C249_format, C249_replace). What holds: C249_exact. The buffer of the stream grows as in libstdc++."
  },
  {
   "property": "C250",
   "status": "proved",
   "theorems": [
    "C250_run"
   ],
   "note": "See C248. Statements as in StrProgModel.v, for the policy in which the index one past the end is harmless; xsurvives in StrFailSpec.v is the abstract semantics."
  },
  {
   "property": "C251",
   "status": "proved",
   "theorems": [
    "C251_count",
    "C251_small"
   ],
   "note": "See C248. xevent_count in StrFailSpec.v. Members that go through a string stream or build a List are not counted."
  },
  {
   "property": "C252",
   "status": "proved",
   "theorems": [
    "C252_int",
    "C252_fraction",
    "C252_complex"
   ],
   "note": "ExnStreamModel.v: every input function of the stream ends with setstate, which throws if the state has a bit of the mask. masked in ExnStreamSpec.v. Calls that do not end without exceptions are in C253; Str in C257."
  },
  {
   "property": "C253",
   "status": "proved",
   "theorems": [
    "C253_fraction",
    "C253_complex",
    "C253_failbit_fraction",
    "C253_failbit_complex",
    "C253_complex_defined",
    "C253_fraction_defined"
   ],
   "note": "See C252. unending in ExnStreamSpec.v says which calls never end: nothing to read, no exception for failbit, and one for eofbit only on a stream that has failed before its end."
  },
  {
   "property": "C254",
   "status": "partial",
   "theorems": [
    "C254_refuted",
    "C254_lost_refuted",
    "C254_exact"
   ],
   "note": "REFUTED: after the last digit the code looks at the next character; at the end of the input that sets failbit, so the exception is thrown and the number is lost (C254_refuted, C254_lost_refuted). C254_exact says which texts are read; with the exception the texts of C104, which are no fractions, are not accepted."
  },
  {
   "property": "C255",
   "status": "partial",
   "theorems": [
    "C255_refuted",
    "C255_real_refuted",
    "C255_followed",
    "C255_j"
   ],
   "note": "REFUTED: a real number at the end of the input is lost (C255_refuted, C255_real_refuted). What holds: C255_followed for a number followed by white space, C255_j for one that ends with j."
  },
  {
   "property": "C256",
   "status": "partial",
   "theorems": [
    "C256_fraction_refuted",
    "C256_complex_refuted",
    "C256_int",
    "C256_malformed"
   ],
   "note": "REFUTED: a Fraction or a real Complex at the end of the input is not stored (C256_fraction_refuted, C256_complex_refuted); the theorems say exactly what is stored. Int: C256_int. C256_malformed: a text that is not a number."
  },
  {
   "property": "C257",
   "status": "partial",
   "theorems": [
    "C257_refuted",
    "C257_exact",
    "C257_end",
    "C257_last_line",
    "C257_line",
    "C257_not_good",
    "C257_loop",
    "C257_quiet_loop"
   ],
   "note": "REFUTED: std::getline empties the Str before it reads, and stores the last line before it throws (C257_refuted, C257_end, C257_last_line). C257_exact: the Str is afterwards what it is without exceptions. C257_loop, C257_quiet_loop: reading loops. Policy: C++ may write to the constant member (see DESIGN.md)."
  },
  {
   "property": "C258",
   "status": "proved",
   "theorems": [
    "C258_any",
    "C258_text",
    "C258_many",
    "C258_tuple",
    "C258_complex"
   ],
   "note": "SinkModel.v: the buffer takes a number of characters and then no more; it does not throw. as_far_as_possible in SinkSpec.v. For Complex the texts of doubles are arbitrary and the width is 0."
  },
  {
   "property": "C259",
   "status": "proved",
   "theorems": [
    "C259_badbit",
    "C259_none",
    "C259_failbit"
   ],
   "note": "See C258. Which numbers are thrown for with exceptions for failbit only is not stated: it depends on where the last piece of the number begins."
  },
  {
   "property": "C260",
   "status": "partial",
   "theorems": [
    "C260_written",
    "C260_untouched",
    "C260_refuted"
   ],
   "note": "REFUTED: operator<< of Int calls std::setw and std::setfill whatever the state of the stream (C260_refuted). C260_written: nothing is written; C260_untouched: values without an Int of two digits or more change nothing."
  },
  {
   "property": "C261",
   "status": "partial",
   "theorems": [
    "C261_width",
    "C261_refuted",
    "C261_thrown_refuted"
   ],
   "note": "REFUTED: an Int that is cut off leaves the width its std::setw has set (C261_refuted); with exceptions for badbit __ostream_insert does not come to reset it (C261_thrown_refuted). C261_width: where it holds."
  },
  {
   "property": "C262",
   "status": "proved",
   "theorems": [
    "C262_equal",
    "C262_draws",
    "C262_default"
   ],
   "note": "The draws are enumerated (RandomSpec.v); a number is as likely as the number of draws that give it. C262_default: random() draws the number of digits, then goes on as random(d)."
  },
  {
   "property": "C263",
   "status": "partial",
   "theorems": [
    "C263_refuted",
    "C263_default_refuted"
   ],
   "note": "REFUTED: std::mt19937 is seeded with one unsigned int, so there are at most 2^32 results, and more than that many integers with 10 digits (C263_refuted, for every generator that is a function of its seed). For fewer digits it depends on std::mt19937, which is not modelled. With ideal draws every integer is possible: C262."
  },
  {
   "property": "C264",
   "status": "proved",
   "theorems": [
    "C264_item",
    "C264_insert",
    "C264_insert_only",
    "C264_pop",
    "C264_slice",
    "C264_slice_domain",
    "C264_times",
    "C264_erase",
    "C264_index"
   ],
   "note": "Python's operations are defined in PySpec.v after its language reference. slice returns for start in [-n, n) and stop in [-n-1, n] (C264_slice_domain); what is out of range for List and not for Python: C266."
  },
  {
   "property": "C265",
   "status": "proved",
   "theorems": [
    "C265_item",
    "C265_slice",
    "C265_slice_domain",
    "C265_times",
    "C265_erase",
    "C265_find"
   ],
   "note": "As C264. count, replace, split with keep_empty and join are those of Python by C81, C86 and C87."
  },
  {
   "property": "C266",
   "status": "partial",
   "theorems": [
    "C266_list_exact",
    "C266_str_exact",
    "C266_list_refuted",
    "C266_str_refuted"
   ],
   "note": "REFUTED: slice, insert and erase throw where Python moves the bounds into the list, * throws for negative numbers, and index and find are undefined for negative bounds (C266_list_refuted, C266_str_refuted). Where they return they agree: C264, C265. C266_list_exact, C266_str_exact: exactly which arguments are accepted."
  },
  {
   "property": "C267",
   "status": "partial",
   "theorems": [
    "C267_div_refuted",
    "C267_mod_refuted",
    "C267_div_exact",
    "C267_mod_exact",
    "C267_divmod_unique"
   ],
   "note": "REFUTED: / rounds towards zero and % of a negative number is computed from the magnitudes (C267_div_refuted, C267_mod_refuted). C267_div_exact, C267_mod_exact: exactly where they agree."
  },
  {
   "property": "C268",
   "status": "partial",
   "theorems": [
    "C268_refuted",
    "C268_exact"
   ],
   "note": "REFUTED: % truncates (C268_refuted). C268_exact: it agrees with Python's exactly if a and b do not have different signs or the remainder is 0."
  },
  {
   "property": "C269",
   "status": "partial",
   "theorems": [
    "C269_refuted",
    "C269_exact"
   ],
   "note": "REFUTED: only spaces separate (C269_refuted). C269_exact: exactly the texts without other whitespace agree."
  },
  {
   "property": "C270",
   "status": "partial",
   "theorems": [
    "C270_refuted",
    "C270_exact",
    "C270_all"
   ],
   "note": "REFUTED: all characters up to 32 are stripped, also those that are no whitespace (C270_refuted). C270_exact: exactly where the results agree; C270_all: all whitespace at the ends is stripped. Characters from 128 on: C90."
  },
  {
   "property": "C271",
   "status": "proved",
   "theorems": [
    "C271_to_integer",
    "C271_constructor"
   ],
   "note": "Python's texts are described by py_int in PySpec.v."
  },
  {
   "property": "C272",
   "status": "partial",
   "theorems": [
    "C272_exact",
    "C272_constructor_exact",
    "C272_underscore_refuted",
    "C272_prefix_refuted",
    "C272_blanks_refuted"
   ],
   "note": "REFUTED: underscores (C272_underscore_refuted), prefixes of the base (C272_prefix_refuted) and for the constructor of Int surrounding whitespace (C272_blanks_refuted) are not accepted. C272_exact, C272_constructor_exact: exactly which of Python's texts are."
  },
  {
   "property": "C273",
   "status": "partial",
   "theorems": [
    "C273_refuted",
    "C273_exact"
   ],
   "note": "REFUTED: extend_front keeps the order of the range, extendleft reverses it. C273_exact: they agree exactly on ranges that are their own reverse."
  },
  {
   "property": "C274",
   "status": "partial",
   "theorems": [
    "C274_refuted",
    "C274_extend_refuted",
    "C274_keys_exact",
    "C274_values_exact",
    "C274_extend"
   ],
   "note": "REFUTED: a Dict is ordered by key, and of a repeated key the first value stays (C274_refuted, C274_extend_refuted). C274_keys_exact, C274_values_exact: exactly where they agree."
  },
  {
   "property": "C275",
   "status": "partial",
   "theorems": [
    "C275_refuted",
    "C275_exact",
    "C275_repr",
    "C275_tuples"
   ],
   "note": "REFUTED: strings have double quotes and no escapes, deques angle brackets, the empty set is {}, fractions in containers have no name (C275_refuted). C275_exact, C275_repr, C275_tuples: exactly the values for which the texts agree. Sets and dicts are taken in their order of iteration; characters are below 128."
  },
  {
   "property": "C276",
   "status": "partial",
   "theorems": [
    "C276_refuted",
    "C276_exact",
    "C276_negative_exponent"
   ],
   "note": "REFUTED: the sign of the result is not that of the modulus (C276_refuted). C276_exact: exactly where the results agree; C276_negative_exponent: exponents for which Python inverts the base."
  },
  {
   "property": "C277",
   "status": "partial",
   "theorems": [
    "C277_refuted",
    "C277_exact",
    "C277_agrees",
    "C277_missing"
   ],
   "note": "REFUTED: doubled braces are not single braces, arguments of type Str appear with quotes, and missing arguments are not reported (C277_refuted). C277_exact: exactly which templates give the same; C277_agrees, C277_missing: templates whose braces only stand in {}."
  },
  {
   "property": "C278",
   "status": "partial",
   "theorems": [
    "C278_refuted",
    "C278_case_exact",
    "C278_count",
    "C278_replace"
   ],
   "note": "REFUTED: lower and upper set and clear bit 5 of every character, and replacing the empty string stops at null characters (C278_refuted). C278_case_exact: exactly which texts are converted as in Python; C278_count, C278_replace: the rest."
  },
  {
   "property": "C279",
   "status": "proved",
   "theorems": [
    "C279_distances"
   ],
   "note": "The elements of graph[v] are traversed with the iterators of List; graph is not changed by the loop."
  },
  {
   "property": "C280",
   "status": "proved",
   "theorems": [
    "C280_python"
   ],
   "note": "Python's texts are described in PyFloatSpec.v; the double computed from the parts is described by computed (StrSpec.v), and C84 and C85 say how it relates to the number."
  },
  {
   "property": "C281",
   "status": "partial",
   "theorems": [
    "C281_underscore_refuted",
    "C281_word_refuted",
    "C281_blank_refuted",
    "C281_exponent_refuted",
    "C281_numbers_exact",
    "C281_words_exact"
   ],
   "note": "REFUTED: underscores (C281_underscore_refuted), words in other spellings or with whitespace (C281_word_refuted) and vertical tabs (C281_blank_refuted) are not accepted; an exponent above INT_MAX is undefined behaviour (C281_exponent_refuted). C281_numbers_exact, C281_words_exact: exactly which of Python's texts are accepted."
  },
  {
   "property": "C282",
   "status": "partial",
   "theorems": [
    "C282_rounding_refuted",
    "C282_tiny_refuted",
    "C282_huge_refuted",
    "C282_simple",
    "C282_zero",
    "C282_zero_throws",
    "C282_integer_divisor",
    "C282_imaginary_divisor",
    "C282_nan_divisor"
   ],
   "note": "REFUTED: the quotient is rounded differently (C282_rounding_refuted), division by small numbers throws (C282_tiny_refuted), large divisors overflow (C282_huge_refuted). What holds: C282_simple for the other operations, C282_zero_throws, C282_integer_divisor, C282_imaginary_divisor, C282_nan_divisor. Python's operations are transcribed in PyComplexSpec.v."
  },
  {
   "property": "C283",
   "status": "partial",
   "theorems": [
    "C283_refuted",
    "C283_finite",
    "C283_coarse"
   ],
   "note": "REFUTED: == has an absolute tolerance and is false of infinities (C283_refuted). What holds: C283_finite, C283_coarse."
  },
  {
   "property": "C284",
   "status": "proved",
   "theorems": [
    "C284_words",
    "C284_twice",
    "C284_twice_words",
    "C284_longer",
    "C284_empty"
   ],
   "note": "The program is in WordsModel.v. C284_longer: with a separator of two characters doing it twice need not give the text back, so the restriction to one character cannot be dropped."
  },
  {
   "property": "C285",
   "status": "proved",
   "theorems": [
    "C285_words",
    "C285_written"
   ],
   "note": "The program is in WordsModel.v. As in C04, adding numbers of opposite signs with equally many digits adds 0 one place beyond the end of the vector, so sums with such terms are stated under the Benign policy; sums of non-negative numbers hold under both."
  },
  {
   "property": "C286",
   "status": "proved",
   "theorems": [
    "C286_fibonacci"
   ],
   "note": "The program is in WordsModel.v; n is a natural number, so the loop counter has no bound."
  },
  {
   "property": "C287",
   "status": "proved",
   "theorems": [
    "C287_place",
    "C287_sorted",
    "C287_sum",
    "C287_sum_overflow"
   ],
   "note": "The programs are in BisectModel.v. C287_sum_overflow: the sum overflows for every List of more than 2^30 elements that are all less than x."
  }
 ]
}