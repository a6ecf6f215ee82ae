{
 "claims": [
  {
   "property": "C01",
   "status": "proved",
   "theorems": [
    "c01_ratio",
    "c01_ratio_by_zero"
   ],
   "note": "All widths and both builds; the division-by-zero and isize::MIN panics are characterised."
  },
  {
   "property": "C02",
   "status": "proved",
   "theorems": [
    "c02_ratio_u"
   ],
   "note": "All widths and both builds."
  },
  {
   "property": "C03",
   "status": "proved",
   "theorems": [
    "c03_ratio_drain",
    "c03_ratio_u_drain"
   ],
   "note": "All widths and both builds; bound (w^2+3w)/2-2."
  },
  {
   "property": "C04",
   "status": "proved",
   "theorems": [
    "c04_canonical"
   ],
   "note": "All widths and both builds."
  },
  {
   "property": "C05",
   "status": "proved",
   "theorems": [
    "c05_decode",
    "c05_decode_primed",
    "c05_reproduced"
   ],
   "note": "Existence, uniqueness and reproduction; all widths and both builds."
  },
  {
   "property": "C06",
   "status": "proved",
   "theorems": [
    "c06_finite_iff_rational",
    "c06_rule"
   ],
   "note": "Over the reals; uses the axioms of the standard library's real numbers (sig_forall_dec, functional_extensionality_dep)."
  },
  {
   "property": "C07",
   "status": "proved",
   "theorems": [
    "c07_sequence_determines"
   ],
   "note": "Over the reals; same standard-library axioms as C06."
  },
  {
   "property": "C08",
   "status": "proved",
   "theorems": [
    "c08_compare_ratios"
   ],
   "note": "All widths and both builds."
  },
  {
   "property": "C09",
   "status": "proved",
   "theorems": [
    "c09_compare",
    "c09_compare_release"
   ],
   "note": "Any numbers built through the API; the build without overflow checks in c09_compare_release."
  },
  {
   "property": "C10",
   "status": "proved",
   "theorems": [
    "c10_reflexive",
    "c10_antisymmetric",
    "c10_transitive",
    "c10_mirror_panics",
    "c10_mirror_never_returns"
   ],
   "note": "Any two numbers at all, any build, whenever the comparisons return; that a panic is mirrored, for operands that do not get stuck."
  },
  {
   "property": "C11",
   "status": "proved",
   "theorems": [
    "c11_homographic",
    "c11_homographic_release"
   ],
   "note": "Any number built through the API, overflow checks on; release builds by C25/C26."
  },
  {
   "property": "C12",
   "status": "proved",
   "theorems": [
    "c12_combine",
    "c12_combine_release"
   ],
   "note": "Any numbers built through the API, overflow checks on; release builds by C25/C26."
  },
  {
   "property": "C13",
   "status": "proved",
   "theorems": [
    "c13_add",
    "c13_sub",
    "c13_mul",
    "c13_div",
    "c13_laws",
    "c13_add_release",
    "c13_sub_release",
    "c13_mul_release",
    "c13_div_release",
    "c13_laws_release"
   ],
   "note": "The four operations and seven laws."
  },
  {
   "property": "C14",
   "status": "proved",
   "theorems": [
    "c14_egest",
    "c14_range",
    "c14_drain",
    "c14_egest_release",
    "c14_drain_release"
   ],
   "note": "Every symbol at any point of any history; the build without overflow checks in c14_*_release."
  },
  {
   "property": "C15",
   "status": "proved",
   "theorems": [
    "c15_egest",
    "c15_drain",
    "c15_compare",
    "c15_consume",
    "c15_homographic",
    "c15_combine"
   ],
   "note": "Overflow checks on."
  },
  {
   "property": "C16",
   "status": "proved",
   "theorems": [
    "c16_none_final",
    "c16_none_final_release"
   ],
   "note": "After None the very same clog is returned again, without panic."
  },
  {
   "property": "C17",
   "status": "proved",
   "theorems": [
    "c17_egest",
    "c17_compare",
    "c17_consume",
    "c17_homographic",
    "c17_combine"
   ],
   "note": "Overflow checks on."
  },
  {
   "property": "C18",
   "status": "partial",
   "theorems": [
    "c18_homographic_by_zero_refuted",
    "c18_claim_refuted",
    "c18_homographic_by_zero_partial"
   ],
   "note": "The property as stated is false of the code: c18_homographic_by_zero_refuted exhibits, on every width and build, a division by zero that returns a number. The partial theorem characterises every division by zero: DivZero panic, overflow, or both denominator coefficients zero and an endless number."
  },
  {
   "property": "C19",
   "status": "partial",
   "theorems": [
    "c19_combine_by_zero_refuted",
    "c19_claim_refuted",
    "c19_combine_by_zero_partial"
   ],
   "note": "The property as stated is false of the code: 1/3 divided by Zero returns an endless number (c19_combine_by_zero_refuted). The partial theorem characterises every division by zero."
  },
  {
   "property": "C20",
   "status": "proved",
   "theorems": [
    "c20_consume",
    "c20_consume_ratio",
    "c20_consume_release"
   ],
   "note": "Any number with checks on; without them c20_consume_release; ratios in any build without panic."
  },
  {
   "property": "C21",
   "status": "proved",
   "theorems": [
    "c21_special",
    "c21_stop"
   ],
   "note": "Any clog, any build."
  },
  {
   "property": "C22",
   "status": "proved",
   "theorems": [
    "c22_within",
    "c22_builds"
   ],
   "note": "Any clog, any build."
  },
  {
   "property": "C23",
   "status": "proved",
   "theorems": [
    "c23_rebuild",
    "c23_rebuild_ratio",
    "c23_rebuild_release"
   ],
   "note": "Any number with checks on; without them c23_rebuild_release; ratios in any build."
  },
  {
   "property": "C24",
   "status": "proved",
   "theorems": [
    "c24_identity",
    "c24_negation"
   ],
   "note": "Any operand that reads without a panic, any build."
  },
  {
   "property": "C25",
   "status": "proved",
   "theorems": [
    "c25_ratio",
    "c25_egest",
    "c25_drain",
    "c25_homographic",
    "c25_combine",
    "c25_compare",
    "c25_consume",
    "c25_has"
   ],
   "note": "No hypotheses on the arguments."
  },
  {
   "property": "C26",
   "status": "partial",
   "theorems": [
    "c26_release_wrong_refuted",
    "c26_claim_refuted",
    "c26_homographic_partial",
    "c26_combine_partial",
    "c26_wrong_sign_refuted",
    "c26_combine_wrong_refuted"
   ],
   "note": "The property as stated is false of the code: with coefficient isize::MIN the release build returns a number of the wrong sign (c26_release_wrong_refuted, all widths), and even without isize::MIN among the arguments homographic and combine can give the wrong sign (c26_wrong_sign_refuted, c26_combine_wrong_refuted). The partial theorems show the result right wherever the debug build does not panic in a built-in operator."
  },
  {
   "property": "C27",
   "status": "proved",
   "theorems": [
    "c27_homographic",
    "c27_combine"
   ],
   "note": "Any build."
  },
  {
   "property": "C28",
   "status": "proved",
   "theorems": [
    "c28_history",
    "c28_builds",
    "c28_deterministic"
   ],
   "note": "All histories, overflow checks on; release builds by c28_builds."
  },
  {
   "property": "C29",
   "status": "proved",
   "theorems": [
    "c29_unwrap_special",
    "c29_unwrap_other",
    "c29_special",
    "c29_homographic_release",
    "c29_combine_release"
   ],
   "note": "Special iff value is -1, 0 or 1: overflow checks on."
  },
  {
   "property": "C30",
   "status": "partial",
   "theorems": [
    "c30_same_value_refuted",
    "c30_claim_refuted",
    "c30_print_partial",
    "c30_print_same_partial",
    "c30_text_injective_partial",
    "c30_print_ratio_partial",
    "c30_print_ratio_u_partial"
   ],
   "note": "The property as stated is false of the code: reading a homographic number prints debugging lines in between (c30_same_value_refuted, all widths and builds). The partial theorems: the capital letters in the text are those of the representation and determine the value; of ratios nothing else is printed."
  },
  {
   "property": "C31",
   "status": "proved",
   "theorems": [
    "c31_primer",
    "c31_homographic_release",
    "c31_combine_release"
   ],
   "note": "Overflow checks on; the Special case is c29_special."
  },
  {
   "property": "C32",
   "status": "partial",
   "theorems": [
    "c32_compare_primers_refuted",
    "c32_claim_refuted",
    "c32_answer_partial",
    "c32_panic_partial"
   ],
   "note": "The property as stated is false of the code: compare_others evaluates the symbols first (c32_compare_primers_refuted, all widths and builds). Proved instead: the answer depends on the primers only and is right for any values in (0,1) (c32_answer_partial), and a panic is always one of reading one of the two after symbols they share (c32_panic_partial)."
  },
  {
   "property": "C33",
   "status": "proved",
   "theorems": [
    "c33_homographic",
    "c33_combine",
    "c33_compare",
    "c33_consume",
    "c33_homographic_release",
    "c33_combine_release",
    "c33_compare_release",
    "c33_consume_release"
   ],
   "note": "Overflow checks on."
  },
  {
   "property": "C34",
   "status": "partial",
   "theorems": [
    "c34_reciprocal_refuted",
    "c34_claim_refuted",
    "c34_reciprocal_partial",
    "c34_reciprocal_negative_partial"
   ],
   "note": "The property as stated is false of the code (c34_reciprocal_refuted, all widths and builds). The partial theorems together characterise exactly which operands overflow."
  },
  {
   "property": "C35",
   "status": "proved",
   "theorems": [
    "c35_precision"
   ],
   "note": "Over the reals; same standard-library axioms as C06."
  },
  {
   "property": "C36",
   "status": "proved",
   "theorems": [
    "c36_demo"
   ],
   "note": "All widths and both builds."
  },
  {
   "property": "C37",
   "status": "partial",
   "theorems": [
    "c37_logic_error_refuted",
    "c37_divzero_refuted",
    "c37_claim_refuted",
    "c37_egest_partial",
    "c37_compare_partial",
    "c37_consume_partial",
    "c37_homographic_partial",
    "c37_combine_partial"
   ],
   "note": "The property as stated is false of the code: on 1/3 a wrapped coefficient leads to the logic error panic (c37_logic_error_refuted, all widths). The partial theorems confine this to calls on which the build with overflow checks panics in a built-in operator."
  },
  {
   "property": "C38",
   "status": "partial",
   "theorems": [
    "c38_stuck_refuted",
    "c38_claim_refuted",
    "c38_homographic_partial",
    "c38_combine_partial",
    "c38_compare_partial",
    "c38_consume_partial",
    "c38_readable_partial",
    "c38_steady_partial"
   ],
   "note": "The property as stated is false of the code: (1/3)/0 is a number, and some calls on it never end (c38_stuck_refuted, all widths and builds). The partial theorems: on operands that can be read to an end every call ends, in any build, for any coefficients."
  },
  {
   "property": "C39",
   "status": "proved",
   "theorems": [
    "c39_reads",
    "c39_reads_enough",
    "c39_reads_reached",
    "c39_ends",
    "c39_reads_rate",
    "c39_reads_rate_reached"
   ],
   "note": "Any clog, any build; at most (46w-87)/19, within one of what is reached, and at least w-3 unless the end is reached."
  },
  {
   "property": "C40",
   "status": "partial",
   "theorems": [
    "c40_homographic_refuted",
    "c40_egest_refuted",
    "c40_claim_refuted",
    "c40_ratio_partial",
    "c40_silent_partial",
    "c40_lines_partial"
   ],
   "note": "The property as stated is false of the code: every call on a homographic state prints (c40_*_refuted). The partial theorems: specials and ratios are silent; all that is written is lines of four integers; outcomes are not affected."
  },
  {
   "property": "C41",
   "status": "partial",
   "theorems": [
    "c41_feed_refuted",
    "c41_feed_ratio_refuted",
    "c41_claim_refuted",
    "c41_value_partial"
   ],
   "note": "The property as stated is false of the code: c41_feed_refuted shows the panic for every number between 2^-(w-6) and 2^(w-6) in size that leaves a leftover (ratios in any build: c41_feed_ratio_refuted). c41_value_partial: if the call returns, the result is right."
  },
  {
   "property": "C42",
   "status": "partial",
   "theorems": [
    "c42_drain_refuted",
    "c42_claim_refuted",
    "c42_drain_partial",
    "c42_homographic_partial",
    "c42_combine_partial",
    "c42_arithmetic_partial"
   ],
   "note": "The property as stated is false of the code: c42_drain_refuted gives an endless number for every width. The partial theorems: it ends unless the build with checks panics in a built-in operator (c42_drain_partial); results of homographic and combine over readable operands are readable in either build (c42_homographic_partial, c42_combine_partial, c42_arithmetic_partial)."
  },
  {
   "property": "C43",
   "status": "proved",
   "theorems": [
    "c43_homographic"
   ],
   "note": "Either build; the operand need not be a correct representation."
  },
  {
   "property": "C44",
   "status": "partial",
   "theorems": [
    "c44_symbol_refuted",
    "c44_claim_refuted",
    "c44_fields_partial",
    "c44_unwrap_partial",
    "c44_unwrap_calls_partial",
    "c44_ratio_partial",
    "c44_model_partial"
   ],
   "note": "A second model keeps the receiver of a panic (Unwind.v); it is proved equal to the main model otherwise."
  },
  {
   "property": "C45",
   "status": "proved",
   "theorems": [
    "c45_model",
    "c45_homographic",
    "c45_combine",
    "c45_compare",
    "c45_consume",
    "c45_layers",
    "c45_ratio",
    "c45_value",
    "c45_by_zero"
   ],
   "note": "A third model counts open activations (Nesting.v); it is proved to have the same outcomes. The bounds are met (Example)."
  },
  {
   "property": "C46",
   "status": "proved",
   "theorems": [
    "c46_combine",
    "c46_arithmetic",
    "c46_by_zero"
   ],
   "note": "Either build; the operands need not be correct representations. c46_arithmetic covers the four operations without conditions on the operands."
  },
  {
   "property": "C47",
   "status": "proved",
   "theorems": [
    "c47_egest",
    "c47_caught",
    "c47_homographic",
    "c47_combine",
    "c47_consume",
    "c47_client"
   ],
   "note": "Any build; memory is counted in strategies (boxes), not bytes."
  },
  {
   "property": "C48",
   "status": "proved",
   "theorems": [
    "c48_ratio",
    "c48_homographic",
    "c48_combine",
    "c48_compare",
    "c48_consume",
    "c48_client"
   ],
   "note": "Any build. Activations are counted, each of which does a bounded number of machine operations; how many symbols a result gives is bounded by C43 and C46."
  },
  {
   "property": "C49",
   "status": "partial",
   "theorems": [
    "c49_symbol",
    "c49_enough",
    "c49_enough_combine",
    "c49_enough_rest",
    "c49_symbol_rest",
    "c49_opening_partial",
    "c49_opening_refuted",
    "c49_combine_opening_refuted",
    "c49_combine_symbol_refuted"
   ],
   "note": "Proved for every symbol homographic gives and every symbol combine gives after an operand has ended, and that what was read is enough for homographic and combine. The opening: proved where the denominator is positive, refuted where it is negative. Refuted for combine before an operand has ended, both for the opening and for the symbols."
  },
  {
   "property": "C50",
   "status": "partial",
   "theorems": [
    "c50_homographic",
    "c50_combine",
    "c50_amplifications",
    "c50_ratio",
    "c50_operations",
    "c50_small",
    "c50_size_refuted"
   ],
   "note": "Proved, with the count of amplifications; refuted without it."
  },
  {
   "property": "C51",
   "status": "proved",
   "theorems": [
    "c51_opening",
    "c51_reading"
   ],
   "note": "Proved for calls that return and calls that panic."
  },
  {
   "property": "C52",
   "status": "proved",
   "theorems": [
    "c52_compare",
    "c52_special",
    "c52_needed",
    "c52_consume"
   ],
   "note": "Proved for all calls that return."
  },
  {
   "property": "C53",
   "status": "proved",
   "theorems": [
    "c53_symbol"
   ],
   "note": "Proved for every symbol."
  },
  {
   "property": "C54",
   "status": "partial",
   "theorems": [
    "c54_ratio",
    "c54_egest",
    "c54_drain",
    "c54_homographic",
    "c54_combine",
    "c54_compare",
    "c54_has",
    "c54_consume_refuted",
    "c54_claim_refuted",
    "c54_consume_partial"
   ],
   "note": "Proved for every operation except consume, which stops at a quarter of isize::MAX: 1/20000 consumed on 16 and on 32 bits gives different answers (c54_consume_refuted). c54_consume_partial: the answers are the same where the narrow build read to the end. c54_has covers histories with consume."
  },
  {
   "property": "C55",
   "status": "proved",
   "theorems": [
    "c55_precise",
    "c55_precise_release"
   ],
   "note": "Proved. The bound is absolute (on 1/x above one), not relative: near zero nothing better is true."
  },
  {
   "property": "C56",
   "status": "proved",
   "theorems": [
    "c56_exact",
    "c56_ratio",
    "c56_parts",
    "c56_bound"
   ],
   "note": "Proved, with c56_bound showing that twice the parts is too far."
  },
  {
   "property": "C57",
   "status": "proved",
   "theorems": [
    "c57_symbol"
   ],
   "note": "Proved. When an operand ends the other goes on in a homographic, to which C53 applies."
  },
  {
   "property": "C58",
   "status": "proved",
   "theorems": [
    "c58_compare",
    "c58_enough"
   ],
   "note": "Proved."
  },
  {
   "property": "C59",
   "status": "proved",
   "theorems": [
    "c59_formula",
    "c59_compare",
    "c59_small"
   ],
   "note": "Proved. The bound is on the operands as fractions, not on the result of the whole formula."
  },
  {
   "property": "C60",
   "status": "proved",
   "theorems": [
    "c60_same",
    "c60_alone",
    "c60_freed",
    "c60_history"
   ],
   "note": "Proved. What a panic leaves on the heap is C61; Box is modelled as plain ownership."
  },
  {
   "property": "C61",
   "status": "proved",
   "theorems": [
    "c61_same",
    "c61_alone",
    "c61_freed",
    "c61_first",
    "c61_held"
   ],
   "note": "Proved. Box is modelled as plain ownership."
  },
  {
   "property": "C62",
   "status": "proved",
   "theorems": [
    "c62_compare",
    "c62_homographics",
    "c62_combines",
    "c62_suite",
    "c62_compare_seen",
    "c62_homographics_seen",
    "c62_combines_seen",
    "c62_reference",
    "c62_expected_homographic",
    "c62_expected_combine"
   ],
   "note": "Proved."
  },
  {
   "property": "C63",
   "status": "proved",
   "theorems": [
    "c63_symbols",
    "c63_formula",
    "c63_compare",
    "c63_homographic",
    "c63_combine",
    "c63_order"
   ],
   "note": "Proved."
  },
  {
   "property": "C64",
   "status": "proved",
   "theorems": [
    "c64_powers",
    "c64_parts",
    "c64_lowest",
    "c64_lowest_release",
    "c64_fraction",
    "c64_small"
   ],
   "note": "Proved."
  },
  {
   "property": "C65",
   "status": "partial",
   "theorems": [
    "c65_multiplied_partial",
    "c65_divided_partial",
    "c65_added_partial",
    "c65_added_inverse_partial",
    "c65_subtracted_partial",
    "c65_double_refuted",
    "c65_halve_refuted",
    "c65_next_refuted",
    "c65_next_partial",
    "c65_next_inverse_refuted",
    "c65_before_refuted",
    "c65_ignored_refuted"
   ],
   "note": "Proved on the stated ranges (c65_*_partial); false in general, refuted with operands of eight bits on every width."
  },
  {
   "property": "C66",
   "status": "partial",
   "theorems": [
    "c66_pass_partial",
    "c66_seen_partial",
    "c66_ratio",
    "c66_none_partial",
    "c66_none_refuted",
    "c66_ignored",
    "c66_compare_table",
    "c66_homographic_table",
    "c66_panic_table",
    "c66_combine_tables"
   ],
   "note": "Proved but for one test: t_none passes on 32 and 64 bits (c66_none_partial) and fails on 16 (c66_none_refuted)."
  },
  {
   "property": "C67",
   "status": "proved",
   "theorems": [
    "c67_formula_left",
    "c67_formula_right",
    "c67_neutral",
    "c67_opposite",
    "c67_zero"
   ],
   "note": "Proved."
  },
  {
   "property": "C68",
   "status": "partial",
   "theorems": [
    "c68_over_minus_one_partial",
    "c68_over_minus_one_beyond_partial",
    "c68_over_minus_one_below_partial",
    "c68_one_over_partial",
    "c68_one_over_beyond_partial",
    "c68_over_zero",
    "c68_zero_over_partial",
    "c68_over_minus_one_refuted",
    "c68_minus_one_over_refuted",
    "c68_zero_over_refuted"
   ],
   "note": "The plain claim is refuted (c68_over_minus_one_refuted, c68_minus_one_over_refuted, c68_zero_over_refuted); proved within the stated bounds of the operand; beyond them the calls are proved to overflow (-1 / x and x / -1 for negative x: in builds with overflow checks)."
  },
  {
   "property": "C69",
   "status": "proved",
   "theorems": [
    "c69_homographic",
    "c69_combine",
    "c69_compare",
    "c69_consume",
    "c69_read",
    "c69_formula",
    "c69_fraction",
    "c69_identity",
    "c69_opposite",
    "c69_neutral"
   ],
   "note": "Proved."
  },
  {
   "property": "C70",
   "status": "partial",
   "theorems": [
    "c70_add_refuted",
    "c70_mul_refuted",
    "c70_claim_refuted",
    "c70_special_partial",
    "c70_combine_partial",
    "c70_combine_release_partial"
   ],
   "note": "Refuted on every width and build (c70_add_refuted, c70_mul_refuted); proved for special operands, and for results that can be read to their end."
  },
  {
   "property": "C71",
   "status": "partial",
   "theorems": [
    "c71_ignored_refuted",
    "c71_subtract_refuted",
    "c71_double_refuted",
    "c71_add_left_refuted",
    "c71_add_right_refuted",
    "c71_mul_left_refuted",
    "c71_mul_right_refuted",
    "c71_distribute_refuted",
    "c71_cancel_add_refuted",
    "c71_cancel_mul_refuted",
    "c71_compose_refuted",
    "c71_split_refuted",
    "c71_claim_refuted",
    "c71_same_partial",
    "c71_prefix_partial",
    "c71_same_release_partial"
   ],
   "note": "Refuted on every width and build, law by law (c71_*_refuted); proved for formulas whose results can be read to their end."
  },
  {
   "property": "C72",
   "status": "proved",
   "theorems": [
    "c72_homographic",
    "c72_homographic_reciprocal",
    "c72_opposite_left",
    "c72_opposite_right",
    "c72_subtract",
    "c72_reciprocal_left",
    "c72_reciprocal_right",
    "c72_divide",
    "c72_size_needed"
   ],
   "note": "Proved."
  },
  {
   "property": "C73",
   "status": "proved",
   "theorems": [
    "c73_homographic",
    "c73_combine",
    "c73_formula",
    "c73_compare",
    "c73_worth",
    "c73_factor_hurts"
   ],
   "note": "Proved. The call with the factor is on a build with overflow checks. c73_factor_hurts shows that the converse is false."
  },
  {
   "property": "C74",
   "status": "proved",
   "theorems": [
    "c74_fraction",
    "c74_fraction_reached",
    "c74_power",
    "c74_power_reached",
    "c74_ratio_u",
    "c74_ratio",
    "c74_ratio_u_reached",
    "c74_ratio_reached"
   ],
   "note": "Proved; the bounds and that they are reached, for all m and on every width and build."
  },
  {
   "property": "C75",
   "status": "proved",
   "theorems": [
    "c75_precision",
    "c75_slow",
    "c75_rate",
    "c75_rate_reached",
    "c75_rate_is",
    "c75_most",
    "c75_uncovers",
    "c75_read",
    "c75_read_rate"
   ],
   "note": "Proved; sharper than C35. Uses the axioms of the real numbers of the standard library."
  },
  {
   "property": "C76",
   "status": "partial",
   "theorems": [
    "c76_chain_refuted",
    "c76_claim_refuted",
    "c76_chain_partial"
   ],
   "note": "Refuted for numbers with different primers, proved for the others."
  },
  {
   "property": "C77",
   "status": "proved",
   "theorems": [
    "c77_reads",
    "c77_special",
    "c77_apart",
    "c77_ratio_u",
    "c77_ratio",
    "c77_values",
    "c77_ratio_u_reached",
    "c77_opposite"
   ],
   "note": "Proved; the claims on distances and ratios use the axioms of the real numbers of the standard library."
  },
  {
   "property": "C78",
   "status": "proved",
   "theorems": [
    "c78_logarithm",
    "c78_exponents",
    "c78_symbols",
    "c78_read",
    "c78_read_release",
    "c78_ratio_u",
    "c78_ratio",
    "c78_size",
    "c78_order",
    "c78_compare",
    "c78_compare_ratios"
   ],
   "note": "Histories in builds with overflow checks; ratio and ratio_u (comparisons: ratio) in all builds."
  },
  {
   "property": "C79",
   "status": "proved",
   "theorems": [
    "c79_short_u",
    "c79_short",
    "c79_sharp_u",
    "c79_sharp"
   ],
   "note": "All builds; the last claim, on ratio, with overflow checks."
  }
 ]
}
