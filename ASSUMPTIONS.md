# What `Print Assumptions` lists

Written by tools/assumptions.py; 282 theorems.

## Closed under the global context

- C01_number_roundtrip
- C02_round_determined
- C02_round_half_away
- C02_round_idempotent
- C02_round_monotone
- C02_round_negation
- C02_round_negative_digits
- C03_add_var_index
- C03_add_var_stable
- C03_find_first_binding
- C03_find_none
- C04_subst_meaning
- C05_subst_fails_exactly
- C05_subst_names
- C05_subst_unbound_unchanged
- C06_print_parse
- C06_reads_back_exactly
- C06_subst_reads_back_partial
- C06_subst_reads_back_refuted
- C07_paren_any_precedence
- C07_paren_fails_exactly
- C07_paren_of_parsed_reads_back
- C07_paren_reads_back_partial
- C07_paren_reads_back_refuted
- C07_paren_value
- C08_expand_value
- C09_expand_fails_exactly
- C09_expand_total
- C10_expand_multiplies_out_partial
- C10_expand_multiplies_out_refuted
- C11_collect_value
- C12_numeric_division
- C12_numeric_exact
- C12_symbolic_builds_sum
- C12_symbolic_partial
- C12_symbolic_refuted
- C13_comparison
- C13_difference
- C13_error_bound
- C13_negation
- C13_product
- C13_quotient
- C13_sum
- C14_literal_partial
- C14_literal_refuted
- C14_only_known_methods
- C14_only_pi
- C15_division_by_zero
- C15_no_panic_partial
- C15_no_panic_refuted
- C15_polynomial_evaluates_partial
- C16_parentheses_ignored
- C20_eval_ln
- C20_eval_pow
- C20_ln_domain
- C20_log_domain
- C20_pow_domain
- C21_asin
- C21_atan
- C21_cos
- C21_erf
- C21_sin
- C21_tan
- C22_eval
- C22_interpolates
- C22_unique
- C23_mul_add_value
- C23_refused
- C24_exactly_reachable
- C25_request_as_set
- C25_table_order
- C25_terminates
- C26_criterion_partial
- C26_refuted
- C26_safe_requests_partial
- C26_single_request_refuted
- C27_decrement_refuted
- C27_refuted
- C27_same_tree_partial
- C28_file_partial
- C28_library
- C28_one_string_partial
- C28_refuted
- C28_stack_partial
- C28_two_strings_refuted
- C29_comment_refuted
- C29_invisible
- C29_invisible_refuted
- C29_less_refuted
- C29_lex_partial
- C29_neighbours
- C29_refuted
- C30_refuted
- C30_returns_partial
- C31_and_refuted
- C31_branch_refuted
- C31_cast_refuted
- C31_function_partial
- C31_integer_refuted
- C31_lanes_partial
- C31_width_refuted
- C32_consts_partial
- C32_library
- C32_missing_refuted
- C32_nested_refuted
- C32_order_refuted
- C32_refuted
- C43_rounding_error
- C46_defined_partial
- C46_nothing_else
- C46_once
- C46_refuted
- C47_order_partial
- C47_refuted
- C48_criterion_partial
- C48_libm_refuted
- C48_refuted
- C48_requests_partial
- C54_grid
- C54_other_bits
- C54_rows
- C56_abs
- C56_recip
- C56_round
- C56_signum
- C56_sqrt_none
- C57_qnorm_defined
- C57_qnorm_one_refuted
- C57_qnorm_undefined
- C66_spliced
- C66_text
- C66_trees
- C67_called_partial
- C67_names
- C67_refuted
- C68_c
- C68_language
- C68_refuted
- C68_request
- C68_rust_partial
- C69_dropped
- C69_silent
- C70_criterion_partial
- C70_functions_refuted
- C70_refuted
- C70_requests_partial

## `ClassicalDedekindReals.sig_forall_dec`, `FunctionalExtensionality.functional_extensionality_dep`

- C15_asin_outside
- C15_series_overrun
- C42_ln_terminates_refuted

## `ClassicalDedekindReals.sig_forall_dec`, `ClassicalDedekindReals.sig_not_dec`, `FunctionalExtensionality.functional_extensionality_dep`

- C56_sqrt

## `ClassicalDedekindReals.sig_forall_dec`, `ClassicalDedekindReals.sig_not_dec`, `Classical_Prop.classic`, `FunctionalExtensionality.functional_extensionality_dep`

- C15_series_end
- C15_within_limits_partial
- C17_eval_pi_partial
- C17_pi_digits_refuted
- C17_pi_half_unit_partial
- C18_eval_exp_accurate
- C18_exp_accurate
- C19_cos_accurate
- C19_eval_cos_accurate
- C19_eval_sin_accurate
- C19_sin_accurate
- C33_close_partial
- C33_hex64_refuted
- C33_integer_partial
- C33_nearest_refuted
- C33_other_modes
- C33_structure
- C33_twice_rounded_refuted
- C33_zero_refuted
- C34_runif
- C35_accuracy
- C35_scaling
- C35_too_large
- C35_too_small
- C36_accuracy
- C36_split
- C37_in_range_partial
- C37_refuted
- C38_positive_partial
- C38_refuted
- C39_nearest_partial
- C39_refuted
- C40_error_partial
- C40_histogram_partial
- C40_histogram_refuted
- C40_measured_partial
- C40_nan_assertion_vacuous
- C40_nan_refuted
- C41_exp_everywhere_refuted
- C42_ln_terminates_partial
- C44_chebyshev_samples
- C44_needs_two_terms
- C45_approx_error
- C48_consts
- C48_runs
- C48_spliced
- C49_not_below_partial
- C49_refuted
- C50_eval_exp2
- C50_eval_ln
- C50_eval_log
- C50_eval_log10
- C50_eval_log2
- C50_eval_pow
- C50_ln
- C50_log
- C50_pow
- C51_acos
- C51_asin
- C51_atan
- C51_eval_acos
- C51_eval_asin
- C51_eval_atan
- C51_eval_tan
- C51_tan
- C52_dnorm
- C52_erf
- C52_erfc
- C52_eval_dnorm
- C52_eval_erf
- C52_eval_erfc
- C52_eval_pnorm
- C52_eval_qnorm_ends
- C52_eval_qnorm_partial
- C52_pnorm
- C52_qnorm_ends
- C52_qnorm_partial
- C52_qnorm_turns
- C53_ln_units_refuted
- C55_close_partial
- C55_compensated_refuted
- C55_compiles
- C55_float_refuted
- C55_idempotent_refuted
- C55_limit
- C55_test_partial
- C58_cos
- C58_exp
- C58_interval
- C58_sin
- C59_exp2_32
- C59_exp2_64
- C59_explicit
- C60_horner
- C61_exp2_32
- C61_exp2_64
- C62_constants
- C63_exp
- C63_far
- C64_cosh
- C64_sinh
- C64_sinh_tiny
- C65_far
- C65_tanh
- C71_c
- C71_file
- C71_hex
- C71_spliced
- C71_types
- C72_asin
- C72_atan
- C72_atan2
- C72_atan2_zero
- C72_cbrt
- C72_cos
- C72_cosh
- C72_dnorm
- C72_recip
- C72_sin
- C72_sinh
- C72_tan
- C73_accuracy
- C73_infinite
- C73_infinities
- C73_nan_first
- C73_nan_second
- C73_symmetric
- C73_tiny
- C74_infinite
- C74_nan
- C74_refuted
- C74_small
