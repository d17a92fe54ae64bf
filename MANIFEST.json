{
 "claims": [
  {
   "property": "C01",
   "status": "proved",
   "theorems": [
    "C01_is_equiv_total"
   ],
   "note": "Ordinary exceptions; see C14 for the one BaseException path that escapes (interval comparison)."
  },
  {
   "property": "C02",
   "status": "proved",
   "theorems": [
    "C02_identical"
   ],
   "note": ""
  },
  {
   "property": "C03",
   "status": "proved",
   "theorems": [
    "C03_missing"
   ],
   "note": ""
  },
  {
   "property": "C04",
   "status": "proved",
   "theorems": [
    "C04_same_normal_form"
   ],
   "note": ""
  },
  {
   "property": "C05",
   "status": "proved",
   "theorems": [
    "C05_empty_prediction"
   ],
   "note": ""
  },
  {
   "property": "C06",
   "status": "proved",
   "theorems": [
    "C06_readings",
    "C06_accepted_has_reason"
   ],
   "note": "v x y is the verdict of the pair comparison is_latex_equiv on each pair of readings."
  },
  {
   "property": "C07",
   "status": "proved",
   "theorems": [
    "C07_ordered_rule",
    "C07_ordered"
   ],
   "note": "Rule level and whole-verdict level (no matrix text, interval rule does not accept)."
  },
  {
   "property": "C08",
   "status": "proved",
   "theorems": [
    "C08_matching_rule",
    "C08_matching"
   ],
   "note": "Arbitrary stateful back end."
  },
  {
   "property": "C09",
   "status": "proved",
   "theorems": [
    "C09_complete",
    "C09_order_dependence_refuted"
   ],
   "note": "Completeness for equivalence relations, and a refutation of order independence without transitivity."
  },
  {
   "property": "C10",
   "status": "proved",
   "theorems": [
    "C10_kind_and_arity",
    "C10_no_fallback"
   ],
   "note": ""
  },
  {
   "property": "C11",
   "status": "proved",
   "theorems": [
    "C11_in_disables_arity"
   ],
   "note": ""
  },
  {
   "property": "C12",
   "status": "proved",
   "theorems": [
    "C12_matrix_rule",
    "C12_matrix_rule_sound",
    "C12_matrix"
   ],
   "note": ""
  },
  {
   "property": "C13",
   "status": "proved",
   "theorems": [
    "C13_terminates",
    "C13_stable",
    "C13_one_solution",
    "C13_solution"
   ],
   "note": "The bottom of the recursion is arbitrary, so a runaway recursion that is caught would not satisfy the theorem. Hypothesis on the back end: prints_numbers (how integer literals are printed)."
  },
  {
   "property": "C14",
   "status": "proved",
   "theorems": [
    "C14_backend_failures_are_rejections",
    "C14_only_interval_comparison_escapes",
    "C14_interrupt_escapes_refuted"
   ],
   "note": "Everything inside are_equal_under_sympy is swallowed; finding: an interrupt inside the interval comparison escapes is_equiv."
  },
  {
   "property": "C15",
   "status": "proved",
   "theorems": [
    "C15_split_tuple_raises",
    "C15_nesting_unchecked"
   ],
   "note": "Exact characterisation of failures; a witness shows nesting is not checked."
  },
  {
   "property": "C16",
   "status": "proved",
   "theorems": [
    "C16_bracketed",
    "C16_bare"
   ],
   "note": "Bracketed and bare lists, any expected_type."
  },
  {
   "property": "C17",
   "status": "proved",
   "theorems": [
    "C17_outer_brackets"
   ],
   "note": "Says what is unwrapped and where the rest is cut."
  },
  {
   "property": "C18",
   "status": "proved",
   "theorems": [
    "C18_round_trip",
    "C18_natural",
    "C18_spaced",
    "C18_unchanged",
    "C18_pair_merged"
   ],
   "note": "The merge of pairs is proved for all short first components and three-digit second components."
  },
  {
   "property": "C19",
   "status": "proved",
   "theorems": [
    "C19_matrix_round_trip"
   ],
   "note": "All dimensions; environments matrix, pmatrix, bmatrix, ..."
  },
  {
   "property": "C20",
   "status": "proved",
   "theorems": [
    "C20_integer_literals",
    "C20_any_backend"
   ],
   "note": "Given that the back end re-prints the integer faithfully; also proved: whatever it prints is the normal form."
  },
  {
   "property": "C21",
   "status": "proved",
   "theorems": [
    "C21_large_integers_conflated",
    "C21_witness"
   ],
   "note": "Every odd integer between 2^53 and 2^1023 in absolute value, all back ends; plus the concrete pair."
  },
  {
   "property": "C22",
   "status": "proved",
   "theorems": [
    "C22_other_bases",
    "C22_positional_value"
   ],
   "note": "All digit strings and both spellings; base_value is also shown to be the positional sum."
  },
  {
   "property": "C23",
   "status": "proved",
   "theorems": [
    "C23_hundredth",
    "C23_percentages"
   ],
   "note": "All placements of escaped and bare percent signs around any Python float literal."
  },
  {
   "property": "C24",
   "status": "proved",
   "theorems": [
    "C24_slash",
    "C24_frac",
    "C24_negative_misread"
   ],
   "note": "Both spellings with any spacing; the value of the normal form is taken by a separate evaluator. Finding for negative numbers proved for all a, b>0, c>0."
  },
  {
   "property": "C25",
   "status": "proved",
   "theorems": [
    "C25_seven_digits",
    "C25_conflated",
    "C25_witness"
   ],
   "note": "Seven-digit normal form with error bound for every integer-valued literal with an exponent; any two literals printed alike with %e are accepted; concrete witness for every backend."
  },
  {
   "property": "C26",
   "status": "proved",
   "theorems": [
    "C26_am",
    "C26_pm",
    "C26_hour_am",
    "C26_hour_pm",
    "C26_pm_for_am",
    "C26_am_for_pm"
   ],
   "note": "am/no suffix and pm normal forms for every hour, minute, second and spelling of am/pm; conflation proved for every backend whose interval comparison does not raise, hour < 12, some non-zero minute or second, depth >= 2. p.m without its last dot counts as am."
  },
  {
   "property": "C27",
   "status": "proved",
   "theorems": [
    "C27_units_dropped",
    "C27_units_conflated"
   ],
   "note": "Written forms covered: \\text/\\mbox with or without a leading blank, one or two blanks before a multi-letter unit, none before a long unit; plural s/es; powers ^2, ^3, ^{2}, ^{3}. The table is checked by computation, the integers by proof. Corollary: numbers with different units are conflated."
  },
  {
   "property": "C28",
   "status": "proved",
   "theorems": [
    "C28_clean",
    "C28_unwanted"
   ],
   "note": "For every way of printing integers that adds none of the characters; raw fallbacks (set-builder text with an empty condition, see C29) excluded by hypothesis."
  },
  {
   "property": "C29",
   "status": "proved",
   "theorems": [
    "C29_results",
    "C29_recursion",
    "C29_terminates",
    "C29_fuel"
   ],
   "note": "Totality is by construction of the model, which enumerates the single exception site (IndexError of m.group(3)); the theorems give the three possible results, the fuel-free recursion equation and a strictly decreasing measure (number of opening braces)."
  },
  {
   "property": "C30",
   "status": "proved",
   "theorems": [
    "C30_not_idempotent_refuted"
   ],
   "note": "Witness holds whatever the integer printing."
  },
  {
   "property": "C31",
   "status": "proved",
   "theorems": [
    "C31_text",
    "C31_set_builder"
   ],
   "note": "plain_text excludes exactly the strings changed by str_matrix_normalize."
  },
  {
   "property": "C32",
   "status": "proved",
   "theorems": [
    "C32_total",
    "C32_parse_total"
   ],
   "note": "The oracle record stands for SymPy and the parsers; each operation may raise anything and change the state."
  },
  {
   "property": "C33",
   "status": "proved",
   "theorems": [
    "C33_which_pair",
    "C33_exception_hides",
    "C33_hidden_pair_refuted"
   ],
   "note": "first_success: the pairs before are compared without success or exception. C33_hidden_pair_refuted is the witness that a matching later pair can be hidden."
  },
  {
   "property": "C34",
   "status": "proved",
   "theorems": [
    "C34_vectors",
    "C34_vectors_sound",
    "C34_vector_not_set"
   ],
   "note": "Exact verdict for comparisons that return; C34_vectors_sound needs no assumption."
  },
  {
   "property": "C35",
   "status": "proved",
   "theorems": [
    "C35_sets",
    "C35_sets_sound",
    "C35_symmetric_refuted"
   ],
   "note": "C35_symmetric_refuted is the witness for the missing symmetry."
  },
  {
   "property": "C36",
   "status": "proved",
   "theorems": [
    "C36_inequalities",
    "C36_strictness",
    "C36_flipped"
   ],
   "note": "The comparison of the differences is stated as an equation of state transformers."
  },
  {
   "property": "C37",
   "status": "proved",
   "theorems": [
    "C37_raises",
    "C37_rejected"
   ],
   "note": "C37_rejected lifts the exception to the verdict of are_equal_under_sympy."
  },
  {
   "property": "C38",
   "status": "proved",
   "theorems": [
    "C38_equations",
    "C38_definitions",
    "C38_names_ignored"
   ],
   "note": "TFunc/TEqul are the type tags computed by _get_sympy_type."
  },
  {
   "property": "C39",
   "status": "proved",
   "theorems": [
    "C39_tolerance",
    "C39_not_symmetric",
    "C39_not_transitive"
   ],
   "note": "`exact num`: SymPy computes exactly on the values related to rationals; met by the concrete back end of DemoSympy.v. The statement was made precise: the second clause is an else-branch of the first."
  },
  {
   "property": "C40",
   "status": "proved",
   "theorems": [
    "C40_no_false_negatives",
    "C40_different_symbols",
    "C40_draws"
   ],
   "note": "Draws are counted by any measure of the state that only the generator increases."
  },
  {
   "property": "C41",
   "status": "proved",
   "theorems": [
    "C41_matrix_list",
    "C41_list_matrix"
   ],
   "note": "`column l`: Matrix(l) of a flat non-empty list is a column."
  },
  {
   "property": "C42",
   "status": "proved",
   "theorems": [
    "C42_no_hint",
    "C42_hint_accepts"
   ],
   "note": "Equality of whole computations (result and state) for unrecognised hints."
  },
  {
   "property": "C43",
   "status": "proved",
   "theorems": [
    "C43_set_vector_accept_all"
   ],
   "note": "Stated for all worlds whose interval comparison raises only Exceptions."
  },
  {
   "property": "C44",
   "status": "proved",
   "theorems": [
    "C44_no_hint_type_error",
    "C44_set_vector_attribute_error",
    "C44_complex_attribute_error",
    "C44_total_otherwise"
   ],
   "note": "Also proved: with a hint and string normal forms it always returns."
  },
  {
   "property": "C45",
   "status": "proved",
   "theorems": [
    "C45_first_usable_reply",
    "C45_no_usable_reply",
    "C45_bounded",
    "C45_extracted_type"
   ],
   "note": "Calls counted through the model's state; the extraction regex has an independent characterisation."
  },
  {
   "property": "C46",
   "status": "proved",
   "theorems": [
    "C46_prompt",
    "C46_wrapping_idempotent"
   ],
   "note": "Both templates."
  },
  {
   "property": "C47",
   "status": "proved",
   "theorems": [
    "C47_extract_boxed",
    "C47_no_box",
    "C47_box_at_start",
    "C47_unclosed"
   ],
   "note": "Three findings, each for all inputs of its shape."
  },
  {
   "property": "C48",
   "status": "proved",
   "theorems": [
    "C48_accepts",
    "C48_rejects",
    "C48_any"
   ],
   "note": "Both directions, with the exact sequence of states."
  },
  {
   "property": "C49",
   "status": "proved",
   "theorems": [
    "C49_accuracy"
   ],
   "note": "Ratio as an exact fraction; the float division of the script is not modelled."
  },
  {
   "property": "C50",
   "status": "proved",
   "theorems": [
    "C50_earlier_values",
    "C50_values_of_the_call",
    "C50_value_used",
    "C50_kept",
    "C50_forgotten"
   ],
   "note": "The parser and SymPy are an arbitrary record of functions. C50_forgotten is the finding, C50_ex its concrete witness."
  },
  {
   "property": "C51",
   "status": "proved",
   "theorems": [
    "C51_declarations_only",
    "C51_fresh",
    "C51_depends_on_declarations",
    "C51_flags_leak_refuted"
   ],
   "note": "C51_flags_leak_refuted and C51_depends_on_declarations are witnesses computed with the backend of DemoL2S.v."
  },
  {
   "property": "C52",
   "status": "proved",
   "theorems": [
    "C52_value"
   ],
   "note": "`faithful`: SymPy's constructors compute the operations of an abstract arithmetic; met by the rational backend of DemoL2S.v. The grammar (ANTLR) is not modelled: the theorem starts from the parse tree."
  },
  {
   "property": "C53",
   "status": "proved",
   "theorems": [
    "C53_negated_matrix",
    "C53_minus_product",
    "C53_elementary"
   ],
   "note": "`matrices`: what SymPy's constructors give on explicit matrices (class of the result); met by DemoL2S.v. `strictly_math` = position always evaluated."
  },
  {
   "property": "C54",
   "status": "proved",
   "theorems": [
    "C54_members",
    "C54_illegal",
    "C54_forgotten"
   ],
   "note": "`faithful`: the backend's numbers and sets have the usual meaning; latex2sympy of an end point text gives the number (hypothesis `read`). End points within 1e-7 of an integer are integers (`ordinary`); see C63 for the others. C54_forgotten is the finding."
  },
  {
   "property": "C55",
   "status": "proved",
   "theorems": [
    "C55_function_hint"
   ],
   "note": ""
  },
  {
   "property": "C56",
   "status": "proved",
   "theorems": [
    "C56_groups_merged",
    "C56_groups_conflated"
   ],
   "note": ""
  },
  {
   "property": "C57",
   "status": "proved",
   "theorems": [
    "C57_letter_before_infty"
   ],
   "note": ""
  },
  {
   "property": "C58",
   "status": "proved",
   "theorems": [
    "C58_inside_words_refuted"
   ],
   "note": ""
  },
  {
   "property": "C59",
   "status": "proved",
   "theorems": [
    "C59_numbers",
    "C59_integers_loose"
   ],
   "note": "evalf gives a Float, and the Integer 0 for zero (hypothesis ex_evalf)."
  },
  {
   "property": "C60",
   "status": "proved",
   "theorems": [
    "C60_matrices"
   ],
   "note": ""
  },
  {
   "property": "C61",
   "status": "proved",
   "theorems": [
    "C61_complex"
   ],
   "note": ""
  },
  {
   "property": "C62",
   "status": "proved",
   "theorems": [
    "C62_inner_bracket"
   ],
   "note": "Finding."
  },
  {
   "property": "C63",
   "status": "proved",
   "theorems": [
    "C63_moved_down"
   ],
   "note": "Finding."
  },
  {
   "property": "C64",
   "status": "proved",
   "theorems": [
    "C64_rule_verdict",
    "C64_rule_sound"
   ],
   "note": "Same hypotheses as C54 on both texts."
  },
  {
   "property": "C65",
   "status": "proved",
   "theorems": [
    "C65_zero_power",
    "C65_zero_power_many"
   ],
   "note": "Finding."
  },
  {
   "property": "C66",
   "status": "proved",
   "theorems": [
    "C66_imaginary_unit"
   ],
   "note": "Finding."
  },
  {
   "property": "C67",
   "status": "proved",
   "theorems": [
    "C67_zero_derivative"
   ],
   "note": "Finding. The excluded exception is the UnboundLocalError of get_differential_var_str."
  },
  {
   "property": "C68",
   "status": "proved",
   "theorems": [
    "C68_cut_at_commas",
    "C68_piece_rejected",
    "C68_no_parentheses"
   ],
   "note": "Finding."
  },
  {
   "property": "C69",
   "status": "proved",
   "theorems": [
    "C69_plain_number"
   ],
   "note": "Finding."
  },
  {
   "property": "C70",
   "status": "proved",
   "theorems": [
    "C70_tuple_first",
    "C70_tuple_later"
   ],
   "note": "Finding."
  },
  {
   "property": "C71",
   "status": "proved",
   "theorems": [
    "C71_depends_on_history"
   ],
   "note": "Finding, by a computed witness."
  },
  {
   "property": "C72",
   "status": "proved",
   "theorems": [
    "C72_fixed",
    "C72_engine_decides"
   ],
   "note": "Whole computation (result and state) for the second part."
  },
  {
   "property": "C73",
   "status": "proved",
   "theorems": [
    "C73_depth_needed"
   ],
   "note": "Finding. The model counts nested is_equiv calls only; CPython's limit of 1000 frames is reached at a few hundred."
  },
  {
   "property": "C74",
   "status": "proved",
   "theorems": [
    "C74_cut",
    "C74_unique",
    "C74_stuck"
   ],
   "note": "spells/longest/cut are a separate specification of the lexer rules' languages."
  },
  {
   "property": "C75",
   "status": "proved",
   "theorems": [
    "C75_braces",
    "C75_answer"
   ],
   "note": "On the model of the grammar: the first complete parse in ANTLR's order of alternatives."
  },
  {
   "property": "C76",
   "status": "proved",
   "theorems": [
    "C76_reading",
    "C76_spaceless"
   ],
   "note": "`Reads` is the meaning of parse trees also used in C52."
  },
  {
   "property": "C77",
   "status": "proved",
   "theorems": [
    "C77_prepare",
    "C77_value"
   ],
   "note": "Hypotheses: `faithful` (as in C52) and agreement of the generated parser with the grammar model (o_parse); both met by the backend OG of Props_Grammar.v."
  },
  {
   "property": "C78",
   "status": "proved",
   "theorems": [
    "C78_d_and_letter",
    "C78_dot_swallowed"
   ],
   "note": "Finding."
  },
  {
   "property": "C79",
   "status": "proved",
   "theorems": [
    "C79_letters"
   ],
   "note": "Finding."
  },
  {
   "property": "C80",
   "status": "proved",
   "theorems": [
    "C80_symbol_in_parens",
    "C80_sum_in_parens"
   ],
   "note": "Finding."
  },
  {
   "property": "C81",
   "status": "proved",
   "theorems": [
    "C81_function_takes_product",
    "C81_function_leaves_sum"
   ],
   "note": "Finding."
  },
  {
   "property": "C82",
   "status": "proved",
   "theorems": [
    "C82_calculus"
   ],
   "note": "`faithful_calc`: SymPy builders of sums, limits, integrals, derivatives and subs denote the operators of an abstract calculus; met by DemoCalc.v."
  },
  {
   "property": "C83",
   "status": "proved",
   "theorems": [
    "C83_bounds_ignored"
   ],
   "note": "Finding."
  },
  {
   "property": "C84",
   "status": "proved",
   "theorems": [
    "C84_lower_bound_first"
   ],
   "note": "Finding."
  },
  {
   "property": "C85",
   "status": "proved",
   "theorems": [
    "C85_style",
    "C85_nested_refuted"
   ],
   "note": "C85_nested_refuted is the finding."
  },
  {
   "property": "C86",
   "status": "proved",
   "theorems": [
    "C86_candidates"
   ],
   "note": "Outcome of each parser: always the same value, or always an exception."
  },
  {
   "property": "C87",
   "status": "proved",
   "theorems": [
    "C87_pairs_never_equal",
    "C87_pair_texts_differ"
   ],
   "note": "Finding."
  },
  {
   "property": "C88",
   "status": "proved",
   "theorems": [
    "C88_stages"
   ],
   "note": "The stages numerical_equal and diff_equal are characterised in C39 and C40."
  },
  {
   "property": "C89",
   "status": "proved",
   "theorems": [
    "C89_letter_i"
   ],
   "note": ""
  },
  {
   "property": "C90",
   "status": "proved",
   "theorems": [
    "C90_two_definitions",
    "C90_definition_alone",
    "C90_equations"
   ],
   "note": ""
  },
  {
   "property": "C91",
   "status": "proved",
   "theorems": [
    "C91_normal",
    "C91_fixed",
    "C91_spaces"
   ],
   "note": "Class of expressions: Arith.v restricted by LatexForm.plain; capital letters, percentages, colons, coefficients before fractions and unit letters after commands are outside (the normaliser does change those)."
  },
  {
   "property": "C92",
   "status": "proved",
   "theorems": [
    "C92_engine"
   ],
   "note": "For the class of C91; numerals are covered by C93."
  },
  {
   "property": "C93",
   "status": "proved",
   "theorems": [
    "C93_numbers",
    "C93_written",
    "C93_integer",
    "C93_decimal"
   ],
   "note": "SymPy is an oracle with the hypotheses listed in DESIGN.md; C93_written/integer/decimal say which texts are answers; C93_ex shows them met."
  },
  {
   "property": "C94",
   "status": "proved",
   "theorems": [
    "C94_error",
    "C94_kept",
    "C94_meaning"
   ],
   "note": "slack x = x*2^-50 leaves room for rounding; between the bounds of C94 and C95 nothing is claimed."
  },
  {
   "property": "C95",
   "status": "proved",
   "theorems": [
    "C95_rounded",
    "C95_accepted",
    "C95_conflated"
   ],
   "note": "Finding."
  },
  {
   "property": "C96",
   "status": "proved",
   "theorems": [
    "C96_identity",
    "C96_symbols"
   ],
   "note": "end to end for written expressions (class of C91); SymPy behind the named hypotheses of symbolic"
  },
  {
   "property": "C97",
   "status": "proved",
   "theorems": [
    "C97_identities_refuted"
   ],
   "note": "finding, witness |x| against x"
  },
  {
   "property": "C98",
   "status": "proved",
   "theorems": [
    "C98_symbols"
   ],
   "note": "end to end; hypotheses symbolic, sound, comparable, python_same"
  },
  {
   "property": "C99",
   "status": "proved",
   "theorems": [
    "C99_lower",
    "C99_case",
    "C99_case_refuted"
   ],
   "note": "Letters of either case; D excluded (its small form is the differential sign). The refutation holds for every World."
  },
  {
   "property": "C100",
   "status": "proved",
   "theorems": [
    "C100_spaces_refuted",
    "C100_relation_refuted"
   ],
   "note": "Findings by witness; readings in the exact demo back end over the model of the grammar."
  },
  {
   "property": "C101",
   "status": "proved",
   "theorems": [
    "C101_normal",
    "C101_split",
    "C101_tuples",
    "C101_pairs",
    "C101_bare",
    "C101_mixed",
    "C101_spelling_refuted"
   ],
   "note": "end-to-end for sequences of numbers; C101_spelling_refuted is a finding; pairs in brackets are conditional on the interval stage"
  },
  {
   "property": "C102",
   "status": "proved",
   "theorems": [
    "C102_binders",
    "C102_limit_from_above"
   ],
   "note": "Reading of written binders; faithful_calc and agreement of o_parse with Grammar.v assumed as in C77/C82."
  },
  {
   "property": "C103",
   "status": "proved",
   "theorems": [
    "C103_relations"
   ],
   "note": "Chains of relations, any length, any sign of the fifteen."
  },
  {
   "property": "C104",
   "status": "proved",
   "theorems": [
    "C104_factorial_equals"
   ],
   "note": "Finding: 5!=120 is an inequality."
  },
  {
   "property": "C105",
   "status": "proved",
   "theorems": [
    "C105_repeated_exponents"
   ],
   "note": "Finding: repeated exponents associate to the left."
  },
  {
   "property": "C106",
   "status": "proved",
   "theorems": [
    "C106_thousands",
    "C106_long_group"
   ],
   "note": "Thousands separators; finding: 1,2345 is 1234 times 5."
  },
  {
   "property": "C107",
   "status": "proved",
   "theorems": [
    "C107_imaginary"
   ],
   "note": "Exact characterisation of the rewriting; with the findings of the docstring and more as examples."
  },
  {
   "property": "C108",
   "status": "proved",
   "theorems": [
    "C108_normal",
    "C108_split",
    "C108_matrices",
    "C108_shape_refuted",
    "C108_determinant_refuted"
   ],
   "note": "text to verdict for matrices of numbers; two findings refuted with witnesses"
  },
  {
   "property": "C109",
   "status": "proved",
   "theorems": [
    "C109_sequence",
    "C109_order_refuted"
   ],
   "note": "matrix against sequence in either order; finding refuted with witness"
  },
  {
   "property": "C110",
   "status": "proved",
   "theorems": [
    "C110_only",
    "C110_longest"
   ],
   "note": "Vocabulary.v is generated from PS.g4 by tools/vocabulary.py; the lexer model Lexer.v was written by hand."
  },
  {
   "property": "C111",
   "status": "proved",
   "theorems": [
    "C111_guarded"
   ],
   "note": ""
  },
  {
   "property": "C112",
   "status": "proved",
   "theorems": [
    "C112_call",
    "C112_complete"
   ],
   "note": "log and ln (with optional subscripts) are C82/C93 material and not in this table."
  },
  {
   "property": "C113",
   "status": "proved",
   "theorems": [
    "C113_call",
    "C113_complete"
   ],
   "note": "Arguments are numerals and symbols; the converter reads the argument list as one text and cuts it at commas."
  },
  {
   "property": "C114",
   "status": "proved",
   "theorems": [
    "C114_reads_back",
    "C114_stored",
    "C114_round_trip",
    "C114_distinct",
    "C114_plain"
   ],
   "note": "Float64.v's repr is a model of CPython's (validated against it); the round trip is proved for it and for the modelled float(). Zero is read back as zero (the exponent of a zero is not part of its value). Not stated: that no shorter decimal would do."
  },
  {
   "property": "C115",
   "status": "proved",
   "theorems": [
    "C115_verdict",
    "C115_one",
    "C115_decimal_percentage",
    "C115_whole_percentage",
    "C115_other_base",
    "C115_hour",
    "C115_hundredfold"
   ],
   "note": "Verdict under the same hypotheses as C93 on the symbolic back end; instances for percentages, bases and hours. A percentage outside [0.02, 10^14) is not covered by the instance. C115_hundredfold is the finding in general form, C115_ex2 exhibits it for bases."
  },
  {
   "property": "C116",
   "status": "proved",
   "theorems": [
    "C116_symbol",
    "C116_apart",
    "C116_complete"
   ],
   "note": "Written accents and subscripts through preparation, lexer, grammar and converter. \\mathrm is left out because the preparation of the text may take it away."
  },
  {
   "property": "C117",
   "status": "proved",
   "theorems": [
    "C117_pairs",
    "C117_normalizing_keeps_readable_refuted"
   ],
   "note": "Pairs of letters by computation over the whole (finite) domain; products of any number of factors are in C76. The second part is a finding: 't r' is readable, its normal form 'tr' is not."
  },
  {
   "property": "C118",
   "status": "proved",
   "theorems": [
    "C118_prepare",
    "C118_in_context",
    "C118_value"
   ],
   "note": "Assumes `faithful` and that the generated parser follows the grammar where Grammar.v answers Found (as C77). Operands with other characters (nested parentheses, braces) are not rewritten by the code and not covered."
  },
  {
   "property": "C119",
   "status": "proved",
   "theorems": [
    "C119_words",
    "C119_latex2latex",
    "C119_other_commands_kept_refuted"
   ],
   "note": "Finding: \\\\rightarrow is printed as arrow (C119_other_commands_kept_refuted). Which fraction command is in force is L2S state (kind)."
  },
  {
   "property": "C120",
   "status": "proved",
   "theorems": [
    "C120_no_order",
    "C120_alone"
   ],
   "note": "For every back end, even one in which the order cannot be decided."
  },
  {
   "property": "C121",
   "status": "proved",
   "theorems": [
    "C121_evidence",
    "C121_scalar"
   ],
   "note": "The evidence relation (accepted, same_scalar, small, agree) is a separate specification in Evidence.v; C121_ex2 shows that it is not trivially met."
  },
  {
   "property": "C122",
   "status": "proved",
   "theorems": [
    "C122_justified"
   ],
   "note": "The reasons are an inductive relation (justified/agreeing, Justified.v); cutting into entries is that of split_tuple/split_matrix (C25, C26). C122_ex2 shows a pair without a reason. With C121 for the symbolic engine."
  },
  {
   "property": "C123",
   "status": "proved",
   "theorems": [
    "C123_complex",
    "C123_hint",
    "C123_broken"
   ],
   "note": "C123_complex and C123_hint for the written numbers, C123_broken for unbalanced ones; what the engine says about the two texts is C52-C61 and C92-C93."
  },
  {
   "property": "C124",
   "status": "proved",
   "theorems": [
    "C124_text_dropped",
    "C124_accepted"
   ],
   "note": "Finding. The exceptions in unheeded and time_word are the words the normaliser treats before (C26, C06) or that start a matrix."
  },
  {
   "property": "C125",
   "status": "proved",
   "theorems": [
    "C125_bars"
   ],
   "note": "C125_bars for bars with an upper equation. Bars with a subscript are covered from the tree on (C82), not from the text: the model of the grammar may give up after an underscore."
  },
  {
   "property": "C126",
   "status": "proved",
   "theorems": [
    "C126_dollars",
    "C126_percent",
    "C126_percent_refuted"
   ],
   "note": "C126_dollars for every formula over the alphabet formula_cp; C126_percent and C126_percent_refuted are the finding."
  },
  {
   "property": "C127",
   "status": "proved",
   "theorems": [
    "C127_sizes",
    "C127_space_refuted"
   ],
   "note": "C127_sizes; C127_space_refuted is the finding."
  },
  {
   "property": "C128",
   "status": "proved",
   "theorems": [
    "C128_membership",
    "C128_accepted"
   ],
   "note": "C128_membership, C128_accepted."
  },
  {
   "property": "C129",
   "status": "proved",
   "theorems": [
    "C129_degrees",
    "C129_verdict"
   ],
   "note": "C129_degrees, C129_verdict. Whole numbers only; degrees inside larger formulas are not covered."
  },
  {
   "property": "C130",
   "status": "proved",
   "theorems": [
    "C130_scale",
    "C130_accepted",
    "C130_plural"
   ],
   "note": "Whole numbers only, at most one space before the word; words inside text commands are not covered."
  },
  {
   "property": "C131",
   "status": "proved",
   "theorems": [
    "C131_pair",
    "C131_accepted",
    "C131_verdict",
    "C131_merged"
   ],
   "note": "Words inside a text command and more than two numbers are not covered."
  },
  {
   "property": "C132",
   "status": "proved",
   "theorems": [
    "C132_spacing",
    "C132_accepted",
    "C132_other_spaces_refuted"
   ],
   "note": "Letters other than x, y, z are left out since words and units are rewritten; the finding is a witness for the two commands."
  },
  {
   "property": "C133",
   "status": "proved",
   "theorems": [
    "C133_guard"
   ],
   "note": "Dead code in the repository; letters by the same table as the str.isalpha used elsewhere."
  },
  {
   "property": "C134",
   "status": "proved",
   "theorems": [
    "C134_pair",
    "C134_accepted",
    "C134_verdict",
    "C134_mbox_refuted"
   ],
   "note": "NormOrText.v, Props_OrText.v: C134_pair, C134_accepted, C134_verdict for every text separator; C134_mbox_refuted is the finding"
  },
  {
   "property": "C135",
   "status": "proved",
   "theorems": [
    "C135_plain",
    "C135_accepted",
    "C135_verdict",
    "C135_merged"
   ],
   "note": "NormList.v, Props_List.v: C135_plain, C135_accepted, C135_verdict by induction on the list; C135_merged is a finding"
  },
  {
   "property": "C136",
   "status": "proved",
   "theorems": [
    "C136_braced",
    "C136_accepted",
    "C136_verdict",
    "C136_crossed",
    "C136_pair_refuted"
   ],
   "note": "NormBrace.v, Props_Brace.v: C136_braced, C136_accepted, C136_verdict; C136_crossed and C136_pair_refuted are findings"
  },
  {
   "property": "C137",
   "status": "proved",
   "theorems": [
    "C137_plain",
    "C137_accepted",
    "C137_verdict"
   ],
   "note": "NormEqs.v, Props_Eqs.v: C137_plain, C137_accepted, C137_verdict by induction on the list"
  }
 ]
}