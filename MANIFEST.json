{
 "claims": [
  {
   "property": "C01",
   "status": "proved",
   "theorems": [
    "published_never_changes"
   ],
   "note": "Every history of API calls of value/persist, any number of slices and editors (sequential)."
  },
  {
   "property": "C02",
   "status": "proved",
   "theorems": [
    "editor_is_a_list"
   ],
   "note": "Refinement of every history to lists; Resize modelled for n >= 0 (its only callers)."
  },
  {
   "property": "C03",
   "status": "proved",
   "theorems": [
    "concurrent_sets",
    "concurrent_is_sequential",
    "no_data_race",
    "no_deadlock",
    "sets_terminate"
   ],
   "note": "Atomic-step transition system of Set for any number of goroutines, any schedule, after any history of API calls. Sequential consistency is assumed of Go for race-free programs; race freedom itself is proved."
  },
  {
   "property": "C04",
   "status": "proved",
   "theorems": [
    "variables_are_values",
    "unassigned_unchanged",
    "copy_is_independent",
    "indexed_assignment_seen"
   ],
   "note": "Variables, vectors, matrices, their data and their elements share memory through the model of package persist; pending edits live in the variable's editor. Programs are sequences of assignments, indexed assignments and reads over any operators that build new values or share (matrix from vector, data of matrix, element). The element loop of an indexed assignment runs in order here; C03 and C30 treat many goroutines."
  },
  {
   "property": "C05",
   "status": "partial",
   "theorems": [
    "assign_elements",
    "assign_coordinates",
    "assign_misfit",
    "assign_all_or_nothing",
    "index_rejects"
   ],
   "note": "As for C44; the all-or-nothing part holds without those restrictions."
  },
  {
   "property": "C06",
   "status": "partial",
   "theorems": [
    "ranges_tile",
    "parallel_is_sequential",
    "parallel_terminates",
    "parallel_cells",
    "parallel_rows",
    "parallel_scan",
    "parallel_transpose",
    "parallel_assign",
    "parallel_assign_coordinates",
    "parallel_assign_some_value",
    "parallel_assign_repeated_refuted",
    "parallel_encode",
    "parallel_decode",
    "redefined_operator_refuted"
   ],
   "note": "Every schedule, processor count and length, for loops with independent iterations and the loop bodies of elementwise operators, products, reductions, rotations, scan and transposition. False when the user redefines a built-in operator with side effects (redefined_operator_refuted). Indexed assignment: proved when no element is selected twice; otherwise every schedule stores one of the values, and which one depends on the schedule."
  },
  {
   "property": "C07",
   "status": "proved",
   "theorems": [
    "exact_arithmetic",
    "addition_exact",
    "subtraction_exact",
    "multiplication_exact"
   ],
   "note": "All expression trees over literals, and each operator on every operand representation. Outside this class the claim is false: exact_arithmetic_refuted (bitwise | of the out-of-range small integer 2^31 makes a small integer whose square wraps)."
  },
  {
   "property": "C08",
   "status": "proved",
   "theorems": [
    "division_exact"
   ],
   "note": ""
  },
  {
   "property": "C09",
   "status": "partial",
   "theorems": [
    "canonical_results_partial",
    "canonical_results_refuted"
   ],
   "note": "False at -2^31, 2^31, for max and for 1**n, 0**n (refuted theorem); proved up to the two boundary values for the other operators."
  },
  {
   "property": "C10",
   "status": "proved",
   "theorems": [
    "div_euclidean",
    "mod_euclidean"
   ],
   "note": ""
  },
  {
   "property": "C100",
   "status": "partial",
   "theorems": [
    "float_mod_partial",
    "float_mod_refuted",
    "float_mod_range_refuted",
    "float_mod_operands_partial",
    "float_mod_operands_refuted"
   ],
   "note": "False: the quotient is computed in 53 bits whatever the precision, so float 7 mod 3 is not 1, the remainder can exceed the divisor, and a negative float operand is negated in place. Proved up to an error in the 50th bit."
  },
  {
   "property": "C101",
   "status": "partial",
   "theorems": [
    "verb_found_partial",
    "verb_only_there",
    "percent_added",
    "verb_never_panics",
    "verb_found_refuted",
    "negative_decimals_refuted"
   ],
   "note": "False after %%: the index of the verb is that in the rest of the format. False of negative decimal counts. Proved of formats whose first percent sign begins a directive."
  },
  {
   "property": "C102",
   "status": "partial",
   "theorems": [
    "decimals_shown",
    "decimals_in_field",
    "style_refuted"
   ],
   "note": "Proved of one and two numbers as a format. The documented style d is refused, and E gives e."
  },
  {
   "property": "C103",
   "status": "proved",
   "theorems": [
    "integers_shown",
    "rationals_shown"
   ],
   "note": ""
  },
  {
   "property": "C104",
   "status": "proved",
   "theorems": [
    "vector_formatted",
    "matrix_formatted",
    "formatted_alone"
   ],
   "note": ""
  },
  {
   "property": "C105",
   "status": "partial",
   "theorems": [
    "complex_floor_partial",
    "complex_floor_close",
    "complex_floor_one",
    "complex_floor_shifts",
    "complex_floor_fixes",
    "complex_ceiling",
    "complex_floor_refuted"
   ],
   "note": "False of the code for floor when both parts are in one cell (x j x): refuted there, proved otherwise. ceil is proved in full."
  },
  {
   "property": "C106",
   "status": "partial",
   "theorems": [
    "floor_effect",
    "floor_keeps_operand_refuted",
    "ceiling_keeps_operand"
   ],
   "note": "False of the code for floor with a negative rational part; proved for ceil; the effect of floor is given exactly."
  },
  {
   "property": "C107",
   "status": "proved",
   "theorems": [
    "complex_equality",
    "complex_unordered"
   ],
   "note": ""
  },
  {
   "property": "C108",
   "status": "proved",
   "theorems": [
    "complex_built",
    "complex_times_i",
    "complex_inverse"
   ],
   "note": "Unless a limit on the size of integers stops / ."
  },
  {
   "property": "C109",
   "status": "proved",
   "theorems": [
    "complex_power_exact",
    "complex_power_one",
    "complex_power_adds"
   ],
   "note": "Unless a limit on the size of integers stops the evaluation."
  },
  {
   "property": "C11",
   "status": "proved",
   "theorems": [
    "idiv_truncated"
   ],
   "note": ""
  },
  {
   "property": "C110",
   "status": "partial",
   "theorems": [
    "phase_same_partial",
    "phase_elsewhere",
    "phase_same_refuted"
   ],
   "note": "False of the code for numbers on the lower half of the imaginary axis; proved for all others, and there for histories that do not write such a phase."
  },
  {
   "property": "C111",
   "status": "proved",
   "theorems": [
    "float_shown_digits",
    "float_shown_exponent",
    "float_shown_fixed",
    "float_shown_exactly",
    "float_shown_again",
    "float_shown",
    "float_zero_shown",
    "float_format_refuted"
   ],
   "note": "math/big's Float.Text is modelled by its documentation; floats with a binary exponent beyond 10000 are outside the model. The verb F, which SetFormat accepts, shows every float as %F (finding 75)."
  },
  {
   "property": "C112",
   "status": "partial",
   "theorems": [
    "exact_shown_fixed",
    "integers_shown_exponent",
    "integers_shown_digits",
    "zero_shown_exponent",
    "fractions_shown_digits",
    "fractions_shown_exponent_partial",
    "fractions_shown_far_partial",
    "exact_rounding_refuted",
    "fractions_shown_refuted",
    "fractions_text_refuted",
    "no_digits_crash_refuted"
   ],
   "note": "The fixed form, integers with an exponent (the first digits, cut off), integers and moderate fractions under %g are proved for every value and precision up to 800000 digits. Fractions with an exponent are proved to be off by less than one in the last digit except for 1/10**9, 1/10**18, ... and for fractions that round up to a power of ten, for which the text is refuted: ten times too small, or with two points. %.0g is refuted: printing an integer stops the interpreter."
  },
  {
   "property": "C113",
   "status": "partial",
   "theorems": [
    "demo_follows_user",
    "demo_long_line",
    "demo_alone",
    "scripts_have_lines",
    "pipe_in_order",
    "pipe_delivers",
    "demos_while_room",
    "demos_leave_nothing_refuted"
   ],
   "note": "Everything but the last sentence is proved; that a demonstration leaves nothing behind is refuted (finding 80). What the interpreter does with the lines is the session of C78-C81; the order of the two goroutines' output on the screen is not modelled. bufio.Scanner is taken by its documentation, and bytes.TrimSpace for single bytes."
  },
  {
   "property": "C114",
   "status": "partial",
   "theorems": [
    "eval_in_pieces",
    "demo_line_by_line",
    "reset_clears",
    "reset_forgets_partial",
    "escaped_text",
    "html_safe_refuted",
    "line_by_line_refuted",
    "reset_refuted"
   ],
   "note": "Evaluation in pieces and escaping are proved in full. reset_forgets_partial assumes that the history left the precision, the stack limit, the debugging flags, the depth and the files as they were: Reset does not clear them (reset_refuted, finding 82). The text that values print is not part of the session model."
  },
  {
   "property": "C115",
   "status": "partial",
   "theorems": [
    "run_to_the_end",
    "run_to_an_error",
    "loop_to_the_end",
    "histories_exist",
    "process_succeeds",
    "process_fails",
    "process_with_user",
    "session_prints",
    "ivy_returns_last_partial",
    "ivy_last_refuted",
    "ivy_late_refuted",
    "ivy_order_refuted",
    "stdin_refuted"
   ],
   "note": "Everything about Run, the loops and the process is proved for every machine of lines. For the operator ivy the claim holds if the lines write nothing themselves, do not change how values are printed and the last has a value (ivy_returns_last_partial); without these it is refuted (findings 85 and 86). The output for the debug setting cpu, the checks of the flags and profiling are not modelled."
  },
  {
   "property": "C116",
   "status": "partial",
   "theorems": [
    "atan_total",
    "atan_odd",
    "asin_total",
    "acos_total",
    "acosh_total",
    "asinh_total_partial",
    "atanh_total_partial",
    "asinh_negative_refuted",
    "asinh_odd_refuted",
    "tiny_refuted",
    "atanh_near_one_refuted"
   ],
   "note": "atan, asin, acos and acosh are proved in full. asinh_total_partial is for arguments that are not negative, with the sign from 1/8 on: below, and for negative arguments, the claim is false (finding 88). atanh_total_partial is for arguments up to 1 - 2**-p in absolute value, with the sign or 0: false otherwise (finding 89). The complex functions are not computed, only chosen. Exponent limits of big.Float are outside the model."
  },
  {
   "property": "C117",
   "status": "proved",
   "theorems": [
    "sqrt_always",
    "log_always"
   ],
   "note": "With sqrt_accurate of C67. The constant log 2 is any number that is not negative. Exponent limits of big.Float are outside the model."
  },
  {
   "property": "C118",
   "status": "partial",
   "theorems": [
    "exp_total_partial",
    "sinh_total_partial",
    "cosh_total_partial",
    "tanh_total_partial",
    "exp_large_refuted",
    "tanh_large_refuted"
   ],
   "note": "Proved for e**x from 0 to 4p and for sinh, cosh and tanh from -12p to 12p, p being the precision in bits (1024 and 3072 at the default of 256); false for larger arguments (finding 90). e**x of negative numbers is not covered: see C69 for its sign."
  },
  {
   "property": "C119",
   "status": "partial",
   "theorems": [
    "power_edges",
    "power_reciprocal",
    "power_half",
    "power_integer",
    "integer_exponents",
    "power_total_partial",
    "power_small_refuted"
   ],
   "note": "All but the last claim are proved in full. power_total_partial is for x from 1 to 2**(4p) and y below 2**63 in absolute value; for x below 1 the claim is false (finding 91). Infinite floats and exponents from 2**63 on are outside; log 2 is any number up to 3/4."
  },
  {
   "property": "C12",
   "status": "partial",
   "theorems": [
    "operands_unchanged_partial",
    "mod_effect",
    "operands_unchanged_refuted",
    "quotient_aliased_refuted",
    "sin_keeps_operand_refuted"
   ],
   "note": "False for mod on negative rationals, which negates its operands in place, and for sin of a floating-point number, which is negated and reduced in place; proved for every history without mod, and the exact effect of mod is characterised."
  },
  {
   "property": "C120",
   "status": "proved",
   "theorems": [
    "sqrt_of_square",
    "sqrt_perfect_square",
    "power_half_square",
    "sqrt_nearest_refuted"
   ],
   "note": "The last sentence is the refutation of the stronger claim: sqrt 6 at 256 bits is not the nearest float."
  },
  {
   "property": "C121",
   "status": "proved",
   "theorems": [
    "sqrt_of_real",
    "abs_total",
    "abs_exact",
    "sqrt_not_below",
    "csqrt_total",
    "csqrt_accurate",
    "csqrt_proper",
    "csqrt_lost_refuted"
   ],
   "note": "csqrt_lost_refuted is the loss of a small imaginary part."
  },
  {
   "property": "C122",
   "status": "proved",
   "theorems": [
    "exp_accurate",
    "exp_accurate_256",
    "sinh_accurate",
    "cosh_accurate",
    "tanh_accurate"
   ],
   "note": "Negative arguments of e** are in C123."
  },
  {
   "property": "C123",
   "status": "proved",
   "theorems": [
    "exp_small_accurate",
    "cos_accurate",
    "sin_accurate"
   ],
   "note": ""
  },
  {
   "property": "C124",
   "status": "proved",
   "theorems": [
    "log_accurate_below",
    "log_accurate_above"
   ],
   "note": "The stored logarithm of 2 is a parameter between 0 and 1: its own accuracy is not claimed. The bound is absolute: it says little near x = 1. The step counts as fuel, proved enough when it exceeds p."
  },
  {
   "property": "C13",
   "status": "proved",
   "theorems": [
    "comparisons_decide",
    "comparisons_trichotomy"
   ],
   "note": ""
  },
  {
   "property": "C14",
   "status": "proved",
   "theorems": [
    "power_exact"
   ],
   "note": "The size limit is described by pow_limit."
  },
  {
   "property": "C15",
   "status": "proved",
   "theorems": [
    "bitwise_exact",
    "complement_exact",
    "shifts_exact"
   ],
   "note": ""
  },
  {
   "property": "C16",
   "status": "proved",
   "theorems": [
    "factorial_is_product"
   ],
   "note": "The prime-swing algorithm of fac.go, not a loop, is what is modelled."
  },
  {
   "property": "C17",
   "status": "partial",
   "theorems": [
    "combinations_partial",
    "combinations_refuted"
   ],
   "note": "False for b = 0 < a: 3!0 is 1. Proved for all other non-negative pairs."
  },
  {
   "property": "C18",
   "status": "proved",
   "theorems": [
    "floor_is_greatest",
    "ceil_is_least",
    "abs_is_magnitude",
    "neg_is_opposite",
    "sgn_is_sign"
   ],
   "note": ""
  },
  {
   "property": "C19",
   "status": "proved",
   "theorems": [
    "logic_tables",
    "logic_tables_char",
    "not_table"
   ],
   "note": ""
  },
  {
   "property": "C20",
   "status": "partial",
   "theorems": [
    "size_limit_partial",
    "size_limit_power_partial",
    "size_limit_refuted",
    "size_limit_wraps_refuted"
   ],
   "note": "Holds for + - * and for ** while the 64-bit size estimate does not wrap; false for 2**n, <<, factorial and for exponents that wrap the estimate."
  },
  {
   "property": "C21",
   "status": "proved",
   "theorems": [
    "min_is_lesser",
    "max_is_greater"
   ],
   "note": ""
  },
  {
   "property": "C22",
   "status": "proved",
   "theorems": [
    "decode_value",
    "decode_columns",
    "encode_digits",
    "encode_integers",
    "decode_encode",
    "decode_encode_single_base_refuted",
    "decode_no_rows_refuted"
   ],
   "note": "All lengths, shapes and exact numbers; bases may be fractions. The round trip needs more than one base in front of a vector of several numbers (decode_encode_single_base_refuted); decode of a matrix without rows crashes."
  },
  {
   "property": "C23",
   "status": "proved",
   "theorems": [
    "complex_field",
    "complex_parts"
   ],
   "note": ""
  },
  {
   "property": "C24",
   "status": "proved",
   "theorems": [
    "order_reflexive",
    "order_antisymmetric",
    "order_transitive",
    "order_ties",
    "order_ties_nested",
    "order_numeric",
    "order_char",
    "order_class",
    "order_vector"
   ],
   "note": "All nested exact values. Ties are equal values; matrices nested in values tie up to their shapes (order_ties_nested)."
  },
  {
   "property": "C25",
   "status": "proved",
   "theorems": [
    "membership",
    "membership_matrix",
    "membership_nested",
    "membership_fraction_refuted"
   ],
   "note": "For every sort that keeps the contract of Go's sort.Sort. Found: a fraction or complex number tested against a matrix gives a 1 by 1 matrix."
  },
  {
   "property": "C26",
   "status": "partial",
   "theorems": [
    "set_union",
    "set_intersection",
    "set_of_matrix",
    "set_unique",
    "set_unique_scalar",
    "set_unique_first_partial",
    "set_unique_order_refuted",
    "sets_nested"
   ],
   "note": "Union, intersection and unique hold for every sort; the order of first appearance of unique's result is refuted for a sort that reverses ties, which sort.Slice may do, and proved for a stable one."
  },
  {
   "property": "C27",
   "status": "proved",
   "theorems": [
    "index_of",
    "index_of_items",
    "index_of_empty_refuted"
   ],
   "note": "For every stable sort; also arrays of items. Found: a matrix with no items or empty items is a Go runtime crash."
  },
  {
   "property": "C28",
   "status": "proved",
   "theorems": [
    "grade_up",
    "grade_down",
    "grade_up_matrix",
    "grade_down_matrix",
    "grade_empty_refuted"
   ],
   "note": "For every stable sort; matrices by item. Found: a matrix with no items is a Go runtime crash."
  },
  {
   "property": "C29",
   "status": "partial",
   "theorems": [
    "identity",
    "identity_matrix",
    "identity_shape_refuted"
   ],
   "note": "Proved for values without matrices and for matrices of one shape; refuted in general: === ignores the shapes of matrices."
  },
  {
   "property": "C30",
   "status": "partial",
   "theorems": [
    "elementwise_unary",
    "elementwise_same_shape",
    "elementwise_scalar_left",
    "elementwise_scalar_right",
    "elementwise_vector_left",
    "elementwise_vector_right",
    "elementwise_mismatch",
    "elementwise_nested",
    "elementwise_nested_unary",
    "elementwise_mismatch_refuted",
    "elementwise_rank_refuted"
   ],
   "note": "False for an n by 1 column against a matrix with n columns (accepted) and for a 1 by 1 matrix with a scalar (rank 1 result); proved otherwise, for every element operator and every nesting."
  },
  {
   "property": "C31",
   "status": "partial",
   "theorems": [
    "reduce_vector",
    "reduce_rows",
    "reduce_columns",
    "reduce_scalar",
    "reduce_first_vector",
    "reduce_rank1_refuted"
   ],
   "note": "For every operator, given as an arbitrary partial function on values. False for the matrices of rank 1 that mixed-shape arithmetic can return: they show as vectors and cannot be reduced."
  },
  {
   "property": "C32",
   "status": "partial",
   "theorems": [
    "scan_vector",
    "scan_rows",
    "scan_columns",
    "scan_known_vector",
    "scan_known_rows",
    "scan_assoc_vector",
    "scan_assoc_columns",
    "scan_redefined_refuted",
    "scan_limit_refuted"
   ],
   "note": "Operators outside the fast path: every operator and vector. Fast path: the left fold it computes is the prefix reduction for + * and or xor min max on exact numbers; false if the user redefined the operator or set a size limit (refuted theorems)."
  },
  {
   "property": "C33",
   "status": "proved",
   "theorems": [
    "outer_product",
    "outer_scalar_refuted"
   ],
   "note": "For vector and matrix operands and integer scalars; a fraction or complex scalar counts as a 1 by 1 matrix (outer_scalar_refuted)."
  },
  {
   "property": "C34",
   "status": "partial",
   "theorems": [
    "inner_product_vectors",
    "inner_product_matrices",
    "inner_product_mismatch",
    "inner_is_reduction",
    "inner_rank1_refuted",
    "inner_empty_refuted"
   ],
   "note": "False for rank-1 matrices and for a shared axis of length 0; proved otherwise."
  },
  {
   "property": "C35",
   "status": "proved",
   "theorems": [
    "reshape",
    "reshape_rejects",
    "shape_and_count",
    "reshape_to_scalar_refuted"
   ],
   "note": "For every non-empty S. An empty S gives an empty vector instead of a scalar (reshape_to_scalar_refuted)."
  },
  {
   "property": "C36",
   "status": "proved",
   "theorems": [
    "take",
    "drop",
    "take_then_drop"
   ],
   "note": ""
  },
  {
   "property": "C37",
   "status": "partial",
   "theorems": [
    "rotate",
    "rotate_first_axis",
    "rotations_add",
    "rotations_first_axis_add",
    "reverse",
    "reverse_first_axis",
    "reverse_twice",
    "reverse_twice_vector",
    "reverse_first_axis_twice",
    "rotate_shape_refuted",
    "rotate_empty_refuted",
    "rotate_first_axis_rank1_refuted"
   ],
   "note": "False for one-element vectors (a scalar results), for matrices with an empty last axis (crash) and for flip of rank-1 matrices (nothing moves); proved for all other operands."
  },
  {
   "property": "C38",
   "status": "proved",
   "theorems": [
    "transpose_reverses_axes",
    "transpose_twice",
    "transpose_by_axes",
    "transpose_missing_axis",
    "transpose_bad_axis",
    "transpose_empty_refuted"
   ],
   "note": "For matrices other than those of shape x by 0, on which unary transp crashes (see C47)."
  },
  {
   "property": "C39",
   "status": "partial",
   "theorems": [
    "catenate",
    "catenate_slice_right",
    "catenate_slice_left",
    "catenate_one_right",
    "catenate_one_left",
    "catenate_scalar",
    "catenate_first",
    "catenate_first_slice_right",
    "catenate_first_slice_left",
    "catenate_first_one_right",
    "catenate_first_one_left",
    "catenate_fraction_refuted"
   ],
   "note": "False for a fraction or complex scalar next to a matrix, which is rejected; proved otherwise."
  },
  {
   "property": "C40",
   "status": "proved",
   "theorems": [
    "select",
    "select_mismatch",
    "expand",
    "expand_mismatch"
   ],
   "note": ""
  },
  {
   "property": "C41",
   "status": "partial",
   "theorems": [
    "partition_vector",
    "partition_mismatch",
    "partition_matrix_partial",
    "partition_keeps_elements",
    "partition_matrix_refuted"
   ],
   "note": "False for matrices with a single row or a first score of 0, which are rejected; proved otherwise."
  },
  {
   "property": "C42",
   "status": "proved",
   "theorems": [
    "iota_counts",
    "iota_coordinates",
    "where_vector",
    "where_matrix"
   ],
   "note": ""
  },
  {
   "property": "C43",
   "status": "partial",
   "theorems": [
    "split_rows",
    "mix_pads",
    "mix_of_split",
    "split_of_mix",
    "mix_pads_refuted"
   ],
   "note": "The inverse laws hold; padding is wrong for one-element arrays among larger ones and for elements of different rank."
  },
  {
   "property": "C44",
   "status": "partial",
   "theorems": [
    "index_elements",
    "index_element",
    "index_coordinates",
    "index_rejects",
    "index_two_missing_refuted",
    "index_empty_axis_refuted"
   ],
   "note": "Proved for every array, index list and origin when the lengths of the missing axes read the same backwards and no axis that is not indexed is empty; refuted otherwise: two missing indexes give a result with those lengths exchanged, an empty axis is a Go runtime crash."
  },
  {
   "property": "C45",
   "status": "proved",
   "theorems": [
    "inverse_of_matrix",
    "inverse_times_matrix",
    "inverse_exists_iff",
    "singular_not_inverted",
    "only_square",
    "zero_pivot_refuted",
    "inverse_of_vector",
    "inverse_one_element_refuted",
    "inverse_of_number"
   ],
   "note": "Elements are exact complex numbers. An inverse, when given, is one on both sides, also as computed by ivy's own product; it is given exactly when no leading block is singular, so that some invertible matrices are refused (refutation)."
  },
  {
   "property": "C46",
   "status": "partial",
   "theorems": [
    "shapes_kept_partial",
    "shapes_kept_by_others_partial",
    "shapes_kept_with_copies",
    "shape_changed_refuted",
    "shape_shared_refuted"
   ],
   "note": "False: an outer product can write into the spare capacity of a shape that another value uses. True of every history that takes outer products of fresh matrices only, of every operation other than the outer product and mix, and of a program that copies the shape first."
  },
  {
   "property": "C47",
   "status": "partial",
   "theorems": [
    "robust_operators_return",
    "operators_return_partial",
    "expressions_return_partial",
    "fragile_operators_refuted",
    "rotate_empty_refuted",
    "transpose_empty_refuted",
    "decode_no_rows_refuted",
    "inner_empty_refuted",
    "index_empty_axis_refuted",
    "index_of_empty_refuted",
    "grade_empty_refuted"
   ],
   "note": "False of thirteen operators and of indexing, on arrays with an axis of length 0. True of every other operator on all operands, of those operators where no matrix or no empty axis is involved, and so of every expression, of any size, in which none of them meets an empty axis. Reductions, scans, products and each must be given operators that are not fragile."
  },
  {
   "property": "C48",
   "status": "partial",
   "theorems": [
    "locals_fresh_refuted",
    "locals_fresh_partial"
   ],
   "note": "The claim is false of the code: a frame starts with what an earlier call left (context.go:92-99). Proved for programs whose operators assign every local before reading it, against an interpreter with empty frames."
  },
  {
   "property": "C49",
   "status": "proved",
   "theorems": [
    "call_balanced",
    "expression_balanced",
    "stack_bounded",
    "depth_recorded",
    "parser_wf",
    "program_stack",
    "stack_overflow",
    "stack_overflow_binary",
    "more_steps",
    "more_steps_lines"
   ],
   "note": "For arbitrary built-in operators that may call back, and an arbitrary parser whose operators refer to their own locals."
  },
  {
   "property": "C50",
   "status": "partial",
   "theorems": [
    "evaluation_history",
    "program_history",
    "table_consistent_partial",
    "failed_definition_refuted",
    "failed_definition",
    "definition",
    "definition_succeeds",
    "opdelete"
   ],
   "note": "Refuted for a new operator whose definition fails: it stays in the order of definitions."
  },
  {
   "property": "C51",
   "status": "partial",
   "theorems": [
    "clash_refuted",
    "no_clash_partial"
   ],
   "note": "Refuted by an assignment inside an operator; definitions and deletions alone never make a clash."
  },
  {
   "property": "C52",
   "status": "proved",
   "theorems": [
    "parse_iff",
    "unambiguous",
    "right_to_left",
    "chain_order",
    "line_value"
   ],
   "note": "The parser accepts exactly the expressions of a grammar stated separately (ParseSpec.v), which is unambiguous; every expression is a chain of operators nested to the right, and is executed from the right. The scanner is outside: a line is its tokens."
  },
  {
   "property": "C53",
   "status": "partial",
   "theorems": [
    "saved_variables_read_back_partial",
    "saved_variable_refuted",
    "saved_matrix_redefined_refuted"
   ],
   "note": "The lines )save writes for variables, as text, through the scanner, parser and evaluator: all values built from numbers, characters, strings, vectors and matrices except one-element vectors, strings inside vectors and one-element matrices holding a vector or matrix, for which the refutation gives counterexamples. Missing: floating-point numbers (they come back as rationals) and the parts of the file with settings and operator definitions."
  },
  {
   "property": "C54",
   "status": "partial",
   "theorems": [
    "printed_number_reads_back",
    "printed_line_reads_back",
    "number_prints",
    "number_has_two_parts",
    "every_base_prints_refuted"
   ],
   "note": "Every canonical number that is printed digit by digit reads back, through the scanner, for whole lines. The refutation: integers of 32 bits or more are not printed in bases other than 2, 8, 10, 16. Numbers of more than )maxdigits digits (printed as floats) and a )format are not modelled."
  },
  {
   "property": "C55",
   "status": "proved",
   "theorems": [
    "source_string_reads_back",
    "source_char_reads_back",
    "saved_string_reads_back"
   ],
   "note": "The form in listed operators (both for lists and single characters) and the form )save writes. Which characters print as themselves is a parameter, so the theorems hold for every Unicode version. Characters are runes; bytes of invalid UTF-8 are outside."
  },
  {
   "property": "C56",
   "status": "proved",
   "theorems": [
    "parser_stops",
    "steps_irrelevant",
    "parser_consumes",
    "line_statements"
   ],
   "note": "For every sequence of tokens. Special commands and the scanner are outside."
  },
  {
   "property": "C57",
   "status": "partial",
   "theorems": [
    "print_parse_partial",
    "print_operator_partial",
    "printed_text_partial",
    "print_parse_refuted",
    "print_declared_refuted"
   ],
   "note": "Refuted as stated: 1 (3[1]) prints as 1 3[1], a variable with an operator's name loses its parentheses, a declared operator prints without a body. Proved for trees without these, for expressions and for whole operators, at the level of tokens; and for expressions from their printed text through the scanner and the parser (printed_text_partial), when their names and constants have spellings the scanner takes as one token."
  },
  {
   "property": "C58",
   "status": "partial",
   "theorems": [
    "one_variable",
    "arguments_local",
    "local_iff_partial",
    "local_iff_refuted"
   ],
   "note": "Refuted in general: in x : x = 1 the name is read first but made local. Proved where each conditional uses first in the same way the names on both its sides."
  },
  {
   "property": "C59",
   "status": "proved",
   "theorems": [
    "series_loop_stops",
    "series_loop_value",
    "functions_stop",
    "integer_power_stops",
    "rounding_representable",
    "rounding_error"
   ],
   "note": "For every loop body, rounding and precision. asin and acos, which call atan and sqrt, have no loop of their own."
  },
  {
   "property": "C60",
   "status": "partial",
   "theorems": [
    "settings_stay_legal",
    "rejected_commands_partial",
    "rejected_command_refuted"
   ],
   "note": "The ranges are proved for any text given to a session, files read with )get included. That a rejected command changes nothing holds with at most one argument; false otherwise: `)base 3 please` is rejected and sets the base. )demo, )timezone and definitions of operators are outside."
  },
  {
   "property": "C61",
   "status": "proved",
   "theorems": [
    "lines_continue",
    "lines_stack",
    "error_keeps",
    "parse_error_keeps",
    "failed_assignment",
    "unassigned_variable_kept"
   ],
   "note": "Go runtime panics end the program and are Crash in the model."
  },
  {
   "property": "C62",
   "status": "proved",
   "theorems": [
    "body_value",
    "condition_value",
    "return_stops",
    "unary_call_value",
    "binary_call_value"
   ],
   "note": ""
  },
  {
   "property": "C63",
   "status": "partial",
   "theorems": [
    "each_parts",
    "binary_each_parts",
    "each_empty_refuted"
   ],
   "note": "Unary and binary each, at every depth, for every operator; false for a matrix with an empty trailing axis, whose parts are not visited."
  },
  {
   "property": "C64",
   "status": "proved",
   "theorems": [
    "definition_text",
    "definition_names",
    "delete_text"
   ],
   "note": "At the level of tokens. Names left declared after a rejected definition (a defect of the code) are not modelled."
  },
  {
   "property": "C65",
   "status": "proved",
   "theorems": [
    "mdiv_solves",
    "mdiv_exists_iff",
    "mdiv_vectors"
   ],
   "note": "Elements are exact complex numbers (real ones for two vectors, as the code demands)."
  },
  {
   "property": "C66",
   "status": "partial",
   "theorems": [
    "reduction_ends",
    "sin_cos_end_partial",
    "sin_never_returns_refuted",
    "cos_negative_not_reduced"
   ],
   "note": "Proved for every argument at 9 bits or more; false below: )prec 6, sin 992 never returns."
  },
  {
   "property": "C67",
   "status": "proved",
   "theorems": [
    "sqrt_close",
    "sqrt_of_negative"
   ],
   "note": "Within 16 units of relative error 2**-p in the square. Exponent limits of big.Float are outside the model."
  },
  {
   "property": "C68",
   "status": "partial",
   "theorems": [
    "log_of_power",
    "log_of_digit_power",
    "log_part_bound_partial",
    "log_exact_refuted"
   ],
   "note": "The first half is proved for all integers; the second half is false: 2 log 12 is 3. The integer is never larger than the logarithm."
  },
  {
   "property": "C69",
   "status": "partial",
   "theorems": [
    "exp_positive_partial",
    "cosh_is_positive",
    "exp_positive_refuted",
    "cos_range_refuted"
   ],
   "note": "e**x for x >= 0 and cosh are proved positive at 8 bits or more; e**x for negative x and cos of negative numbers are refuted."
  },
  {
   "property": "C70",
   "status": "proved",
   "theorems": [
    "rounding_symmetric",
    "odd_functions"
   ],
   "note": "atan for the series of small arguments."
  },
  {
   "property": "C71",
   "status": "proved",
   "theorems": [
    "scan_step",
    "scan_loses_nothing"
   ],
   "note": "Bases 0..36; carriage returns are dropped by the scanner and do not count."
  },
  {
   "property": "C72",
   "status": "partial",
   "theorems": [
    "final_newline_partial",
    "final_newline_refuted"
   ],
   "note": "True of texts that do not end in a point and have no sign among their last two characters. False otherwise: `2 * -x` without a final newline is a bad number."
  },
  {
   "property": "C73",
   "status": "partial",
   "theorems": [
    "names_in_every_base_partial",
    "name_after_sign_partial",
    "name_after_sign_refuted",
    "name_of_j_refuted"
   ],
   "note": "A name with a character that is part of no number is one token, also after a sign if it does not begin with a digit of the base or the letter after them. False otherwise: in base 10 `2 * -a` is a bad number, in base 0 it is not; j1 is no name in any base."
  },
  {
   "property": "C74",
   "status": "partial",
   "theorems": [
    "tokens_on_one_line_partial",
    "tokens_on_one_line_refuted"
   ],
   "note": "Proved except for raw strings and an operator ending in a point; false for the latter: `+.` at the end of a line takes the newline."
  },
  {
   "property": "C75",
   "status": "proved",
   "theorems": [
    "token_forms"
   ],
   "note": "The form of numbers and operators is not part of it."
  },
  {
   "property": "C76",
   "status": "proved",
   "theorems": [
    "decimal_is_exact"
   ],
   "note": "Underscores and 0x/0o/0b prefixes in a number with a point are not modelled."
  },
  {
   "property": "C77",
   "status": "partial",
   "theorems": [
    "point_in_base_partial",
    "point_in_base_refuted"
   ],
   "note": "True in the bases 0 and 10 only; the theorem gives the witnesses."
  },
  {
   "property": "C78",
   "status": "partial",
   "theorems": [
    "save_command",
    "default_file",
    "workspace_comes_back_partial",
    "workspace_comes_back_refuted"
   ],
   "note": "From the text of the file through scanner, parser and evaluator, for workspaces without defined operators (with them: C83) and the values of C53. False of the bases, which )save writes and )get does not restore, and of e and pi, which are reset."
  },
  {
   "property": "C79",
   "status": "partial",
   "theorems": [
    "commands_keep_variables_partial",
    "commands_keep_variables_refuted"
   ],
   "note": "Proved for all variables but e and pi, which every successful command resets."
  },
  {
   "property": "C80",
   "status": "partial",
   "theorems": [
    "get_stuck",
    "get_again_refuted",
    "workspace_comes_back_partial"
   ],
   "note": "False: after ten )gets of a file that gets itself, no )get works again in the process. A )get of a saved workspace leaves the depth as it was."
  },
  {
   "property": "C81",
   "status": "proved",
   "theorems": [
    "numeric_commands",
    "debug_toggles",
    "settings_stay_legal"
   ],
   "note": "As text, through the scanner, in every input base. SetConstants follows every command (C79)."
  },
  {
   "property": "C82",
   "status": "partial",
   "theorems": [
    "last_value_partial",
    "line_effects",
    "file_last_value",
    "last_value_text_partial",
    "last_value_refuted"
   ],
   "note": "Proved when the last expression of the line is not an assignment; false for `3; x = 4`, after which _ is 4 and prints nothing."
  },
  {
   "property": "C83",
   "status": "partial",
   "theorems": [
    "operators_come_back_partial",
    "declared_operators",
    "declared_once",
    "recursive_operator_refuted",
    "reduced_operator_refuted",
    "declared_operator_refuted",
    "complex_constant_refuted"
   ],
   "note": "Proved from the text of the file through scanner, parser and definition for workspaces where each operator was made by the parser with the operators before it there, uses only those and unary ones that come later (or itself), and has readable names and constants. False of binary operators used before their definition or by themselves, of operators used only in a reduction before they are defined, of declared operators without a body and of complex constants."
  },
  {
   "property": "C84",
   "status": "partial",
   "theorems": [
    "roll_in_range_partial",
    "roll_any_face",
    "roll_rejects",
    "roll_big_partial",
    "roll_canonical_partial",
    "roll_big_refuted",
    "roll_canonical_refuted"
   ],
   "note": "Proved of small integers and arrays of them, nested or not. False of big integers, to which the origin is not added. The result of a roll near a large origin is not canonical. Uniformity is not stated."
  },
  {
   "property": "C85",
   "status": "proved",
   "theorems": [
    "deal_distinct",
    "deal_any_hand",
    "deal_rejects"
   ],
   "note": "For every generator whose Perm gives a permutation."
  },
  {
   "property": "C86",
   "status": "partial",
   "theorems": [
    "rand_bounds_partial",
    "rand_half_open_partial",
    "rand_half_open_refuted",
    "rand_bits",
    "rand_rejects"
   ],
   "note": "False with the default precision: rand 1 may be 1, since the quotient is rounded to 53 bits. Proved: at most x rounded to 53 bits, and less than x where the precision is at most 51 bits and x has at most 53. The operand is an integer, a rational or any float given by its value."
  },
  {
   "property": "C87",
   "status": "partial",
   "theorems": [
    "roll_reproduced",
    "rand_reproduced_partial",
    "rand_schedule_matters",
    "rand_reproduced_refuted"
   ],
   "note": "Proved of ? on vectors, and of rand on vectors of fewer than 200 elements or with one processor. False of rand on longer vectors: the goroutines of pfor race for the generator."
  },
  {
   "property": "C88",
   "status": "proved",
   "theorems": [
    "vector_display",
    "string_display",
    "number_display_unique",
    "vector_display_reads_back",
    "display_unique_refuted"
   ],
   "note": "Different arrays in general may display alike (a string of digits and a number): display_unique_refuted."
  },
  {
   "property": "C89",
   "status": "proved",
   "theorems": [
    "matrix_display",
    "matrix_display_lines",
    "planes_display",
    "char_matrix_display",
    "number_matrix_display_unique",
    "block_width_refuted"
   ],
   "note": "Of two and three dimensions. With more, each block is such a display, but its widths depend on the blocks that follow (block_width_refuted)."
  },
  {
   "property": "C90",
   "status": "partial",
   "theorems": [
    "display_total_partial",
    "matrices_display_total",
    "display_panics_refuted"
   ],
   "note": "False: a matrix that holds a matrix and a vector panics, among others. Proved for arrays of any shape whose elements all take one line, or are all scalars or rectangles of several lines."
  },
  {
   "property": "C91",
   "status": "partial",
   "theorems": [
    "vector_laid_out_partial",
    "laid_out_refuted"
   ],
   "note": "False where a one-line array stands beside taller ones. Proved for vectors of scalars and rectangles of several lines."
  },
  {
   "property": "C92",
   "status": "partial",
   "theorems": [
    "time_encoded",
    "fraction_encoded_partial",
    "fraction_encoded_refuted",
    "calendar_dates",
    "calendar_days"
   ],
   "note": "Proved of all whole numbers of seconds below 2**53 in size, and of all fractions from 1970 on, to 0.51 nanoseconds. False of fractions before 1970, which can be off by more than a nanosecond."
  },
  {
   "property": "C93",
   "status": "partial",
   "theorems": [
    "decode_encode_partial",
    "decode_encode_refuted",
    "encode_decode_encode_partial",
    "encode_decode_encode_refuted"
   ],
   "note": "False if the zone's offset at that moment is the machine's own but was different when the zone was set; and of fractions before 1970. Proved otherwise."
  },
  {
   "property": "C94",
   "status": "partial",
   "theorems": [
    "decode_moment_partial",
    "encode_decode_partial",
    "decode_shorter_partial",
    "encode_decode_refuted",
    "months_carry"
   ],
   "note": "Proved for vectors with an offset; a vector without one is taken in the offset that the zone had when it was set, so encode may give back a different hour."
  },
  {
   "property": "C95",
   "status": "partial",
   "theorems": [
    "decode_preserves_partial",
    "decode_preserves_refuted"
   ],
   "note": "False: the seconds of the vector, if a float, as in all vectors that encode gives, are overwritten."
  },
  {
   "property": "C96",
   "status": "partial",
   "theorems": [
    "times_total_partial",
    "decode_total",
    "times_total_refuted"
   ],
   "note": "False of empty operands of encode; proved of all others."
  },
  {
   "property": "C97",
   "status": "proved",
   "theorems": [
    "float_arithmetic",
    "float_unary",
    "float_nearest",
    "nearest_is_exact",
    "float_commutes",
    "float_add_monotone"
   ],
   "note": "Floats without infinities; a quotient by 0 is an error or outside the model."
  },
  {
   "property": "C98",
   "status": "partial",
   "theorems": [
    "float_comparisons_partial",
    "float_order_partial",
    "float_comparisons_rounded",
    "float_min_max_partial",
    "float_logic_partial",
    "float_equality_refuted",
    "float_order_refuted"
   ],
   "note": "Proved of floats and of integers within the precision. False with rationals: a rational is rounded before it is compared with a float, so == is not transitive and sorting and sets rest on a relation that is no order."
  },
  {
   "property": "C99",
   "status": "proved",
   "theorems": [
    "float_floor",
    "float_ceil",
    "float_sgn",
    "float_not"
   ],
   "note": ""
  }
 ]
}