{
 "claims": [
  {
   "property": "C01",
   "status": "proved",
   "theorems": [
    "C01_bits",
    "C01_value",
    "C01_adjoint",
    "C01_data"
   ],
   "note": "All 64-bit patterns (NaN payloads included) and all places a real is stored."
  },
  {
   "property": "C02",
   "status": "proved",
   "theorems": [
    "C02_new_var",
    "C02_operations"
   ],
   "note": ""
  },
  {
   "property": "C03",
   "status": "proved",
   "theorems": [
    "C03_enlarging"
   ],
   "note": ""
  },
  {
   "property": "C04",
   "status": "proved",
   "theorems": [
    "C04_initial_size",
    "C04_matmul"
   ],
   "note": "Any two initial sizes and any uninitialised memory contents."
  },
  {
   "property": "C05",
   "status": "proved",
   "theorems": [
    "C05_no_out_of_bounds",
    "C05_matmul"
   ],
   "note": "For calls meeting their preconditions; the exceptions are C34, C35, C36."
  },
  {
   "property": "C06",
   "status": "proved",
   "theorems": [
    "C06_tape",
    "C06_table",
    "C06_zero_length"
   ],
   "note": "C06_zero_length: the loop cannot end only for an initial length of zero, which the parameters exclude."
  },
  {
   "property": "C07",
   "status": "partial",
   "theorems": [
    "C07_values_partial",
    "C07_refuted"
   ],
   "note": "Proved bit for bit for all operations except the ones listed; false for inv_square and x**(-2)."
  },
  {
   "property": "C08",
   "status": "proved",
   "theorems": [
    "C08_gradient"
   ],
   "note": "In exact real arithmetic, for every reachable state with storage below 2^30 tape words and no failing allocation. "
  },
  {
   "property": "C09",
   "status": "proved",
   "theorems": [
    "C09_intermediate"
   ],
   "note": "In exact real arithmetic, for every reachable state with storage below 2^30 tape words and no failing allocation. "
  },
  {
   "property": "C10",
   "status": "proved",
   "theorems": [
    "C10_grad_frame"
   ],
   "note": ""
  },
  {
   "property": "C11",
   "status": "proved",
   "theorems": [
    "C11_reset",
    "C11_repeat"
   ],
   "note": ""
  },
  {
   "property": "C12",
   "status": "proved",
   "theorems": [
    "C12_superposition"
   ],
   "note": "In exact real arithmetic, for every reachable state with storage below 2^30 tape words and no failing allocation. "
  },
  {
   "property": "C13",
   "status": "partial",
   "theorems": [
    "C13_unused",
    "C13_older",
    "C13_gradient",
    "C13_refuted"
   ],
   "note": "In exact real arithmetic proved as stated (C13_unused, C13_older), for every reachable state with storage below 2^30 tape words and no failing allocation. In binary64 false when a step of an unused variable overflows (C13_refuted); C13_gradient: in any arithmetic, for gradient of any function with branches, true whenever the steps of the unused variables, run with adjoint zero, add nothing that changes a zero."
  },
  {
   "property": "C14",
   "status": "proved",
   "theorems": [
    "C14_unary",
    "C14_grad",
    "C14_inv_logit"
   ],
   "note": "In exact real arithmetic, for every reachable state with storage below 2^30 tape words and no failing allocation. log_gamma is C32, inv_square C19."
  },
  {
   "property": "C15",
   "status": "partial",
   "theorems": [
    "C15_var_var",
    "C15_var_real_partial",
    "C15_real_var_partial",
    "C15_grad_var_var",
    "C15_grad_var_real_partial",
    "C15_grad_real_var_partial"
   ],
   "note": "In exact real arithmetic, for every reachable state with storage below 2^30 tape words and no failing allocation. Missing and false: the neutral constants (x+0, x*1, ...), see C16_refuted."
  },
  {
   "property": "C16",
   "status": "partial",
   "theorems": [
    "C16_leaf_partial",
    "C16_refuted",
    "C16_shape_refuted",
    "C16_same_operator_partial",
    "C16_one_operand"
   ],
   "note": "Proved for operands that are independent variables and for operands recorded by the same operator; false for other computed operands: C16_one_operand says what x+0, 0+x, x-0 do to any operand computed from one variable (its derivative becomes 1), C16_shape_refuted what happens with two."
  },
  {
   "property": "C17",
   "status": "partial",
   "theorems": [
    "C17_var_var",
    "C17_var_real_partial",
    "C17_var_int_partial",
    "C17_real_var"
   ],
   "note": "In exact real arithmetic, for every reachable state with storage below 2^30 tape words and no failing allocation. Missing and false: the exponent -2, see C19_refuted; base 0 with non-integer exponents."
  },
  {
   "property": "C18",
   "status": "partial",
   "theorems": [
    "C18_hypot_var_var",
    "C18_hypot_real_partial",
    "C18_refuted"
   ],
   "note": "In exact real arithmetic, for every reachable state with storage below 2^30 tape words and no failing allocation. Missing and false: hypot(0.d0,v), see C18_refuted."
  },
  {
   "property": "C19",
   "status": "partial",
   "theorems": [
    "C19_refuted",
    "C19_derivative_partial",
    "C19_power_derivative_partial"
   ],
   "note": "inv_square computes (1/x)*x: the value is wrong (C19_refuted; in exact arithmetic it is 1 for every x). The derivative passed on is the right one, in exact arithmetic, for every reachable state with storage below 2^30 tape words and no failing allocation."
  },
  {
   "property": "C20",
   "status": "proved",
   "theorems": [
    "C20_sum"
   ],
   "note": "In exact real arithmetic, for every reachable state with storage below 2^30 tape words and no failing allocation. "
  },
  {
   "property": "C21",
   "status": "proved",
   "theorems": [
    "C21_norm2",
    "C21_log_sum_exp"
   ],
   "note": "In exact real arithmetic, for every reachable state with storage below 2^30 tape words and no failing allocation. log_sum_exp: values at most the largest finite binary64, as in any run."
  },
  {
   "property": "C22",
   "status": "proved",
   "theorems": [
    "C22_dot_var_var",
    "C22_dot_var_real",
    "C22_dot_real_var"
   ],
   "note": "In exact real arithmetic, for every reachable state with storage below 2^30 tape words and no failing allocation. "
  },
  {
   "property": "C23",
   "status": "proved",
   "theorems": [
    "C23_matmul_var_var",
    "C23_matmul_var_real",
    "C23_matmul_real_var"
   ],
   "note": "In exact real arithmetic, for every reachable state with storage below 2^30 tape words and no failing allocation. "
  },
  {
   "property": "C24",
   "status": "partial",
   "theorems": [
    "C24_tapes",
    "C24_var_matrix",
    "C24_data_matrix",
    "C24_var_array",
    "C24_real_array_refuted"
   ],
   "note": "Holds for the three kinds matmul uses; false for 1-d real arrays, whose size is never stored."
  },
  {
   "property": "C25",
   "status": "partial",
   "theorems": [
    "C25_partial",
    "C25_binary64_partial",
    "C25_finite",
    "C25_nan",
    "C25_refuted",
    "C25_swapped"
   ],
   "note": "Proved for var-var and var-real, infinities, NaN and signed zeros included; the real-var operators compare in the wrong order."
  },
  {
   "property": "C26",
   "status": "proved",
   "theorems": [
    "C26_abs",
    "C26_binary64"
   ],
   "note": "Real arithmetic and, bit for bit, binary64."
  },
  {
   "property": "C27",
   "status": "proved",
   "theorems": [
    "C27_acosh",
    "C27_atanh"
   ],
   "note": ""
  },
  {
   "property": "C28",
   "status": "proved",
   "theorems": [
    "C28_inv_logit",
    "C28_inv_logit_of_logit",
    "C28_logit_of_inv_logit"
   ],
   "note": "In exact real arithmetic; inverse exact above the threshold and within tiny^2 (resp. 2 tiny) below."
  },
  {
   "property": "C29",
   "status": "proved",
   "theorems": [
    "C29_partials"
   ],
   "note": "In exact real arithmetic, for every reachable state with storage below 2^30 tape words and no failing allocation. "
  },
  {
   "property": "C30",
   "status": "proved",
   "theorems": [
    "C30_var_var",
    "C30_var_real",
    "C30_real_var",
    "C30_real_real",
    "C30_in_program"
   ],
   "note": "In exact real arithmetic, for every reachable state with storage below 2^30 tape words and no failing allocation. "
  },
  {
   "property": "C31",
   "status": "proved",
   "theorems": [
    "C31_var_var",
    "C31_var_real",
    "C31_real_var",
    "C31_real_real",
    "C31_in_program"
   ],
   "note": "In exact real arithmetic, for every reachable state with storage below 2^30 tape words and no failing allocation. "
  },
  {
   "property": "C32",
   "status": "proved",
   "theorems": [
    "C32_log_gamma",
    "C32_errors",
    "C32_reflection"
   ],
   "note": "log_gamma in any arithmetic; digamma's branches in exact real arithmetic with the source's decimal constants. That digamma approximates the true psi function is not claimed."
  },
  {
   "property": "C33",
   "status": "proved",
   "theorems": [
    "C33_no_trace",
    "C33_matmul"
   ],
   "note": ""
  },
  {
   "property": "C34",
   "status": "partial",
   "theorems": [
    "C34_partial",
    "C34_refuted",
    "C34_depth"
   ],
   "note": "Up to ten levels; at ten levels begin_nested writes out of bounds, and with it every call of gradient or jacobian (C34_depth), in every reachable state."
  },
  {
   "property": "C35",
   "status": "partial",
   "theorems": [
    "C35_partial",
    "C35_refuted",
    "C35_unallocated_refuted"
   ],
   "note": "Characterised exactly: in bounds iff the storage is not full."
  },
  {
   "property": "C36",
   "status": "partial",
   "theorems": [
    "C36_end_partial",
    "C36_refuted",
    "C36_always_refuted"
   ],
   "note": "end_nested is the identity; set_zero_nested_adj and grad_nested are out of bounds."
  },
  {
   "property": "C37",
   "status": "proved",
   "theorems": [
    "C37_gradient"
   ],
   "note": "In exact real arithmetic, for every reachable state with storage below 2^30 tape words and no failing allocation. For calls that return; failing on depth or storage is C06, C34, C35; that such calls do return is part of C51."
  },
  {
   "property": "C38",
   "status": "partial",
   "theorems": [
    "C38_gradient_partial",
    "C38_refuted",
    "C38_jacobian_refuted",
    "C38_effect"
   ],
   "note": "False in general (gradient and jacobian sweep the whole tape); proved when all adjoints are zero and the function uses only its arguments. C38_effect says what gradient does to the caller's adjoints in every state: what declaring the arguments, calling f and grad would do."
  },
  {
   "property": "C39",
   "status": "proved",
   "theorems": [
    "C39_jacobian"
   ],
   "note": "In exact real arithmetic, for every reachable state with storage below 2^30 tape words and no failing allocation. For calls that return; that such calls do return is part of C51."
  },
  {
   "property": "C40",
   "status": "proved",
   "theorems": [
    "C40_inner",
    "C40_outer"
   ],
   "note": "In exact real arithmetic, for every reachable state with storage below 2^30 tape words and no failing allocation. "
  },
  {
   "property": "C41",
   "status": "partial",
   "theorems": [
    "C41_partial",
    "C41_refuted",
    "C41_matmul_partial",
    "C41_leaf_partial"
   ],
   "note": "Holds for blocks without matmul (C41_partial), and with matmul as long as no variable without an operation takes a slot that an entry of a matrix product of a block had used (C41_matmul_partial, C41_leaf_partial); false otherwise (C41_refuted)."
  },
  {
   "property": "C42",
   "status": "proved",
   "theorems": [
    "C42_scalar",
    "C42_array",
    "C42_array_scalar",
    "C42_matrix",
    "C42_matrix_scalar"
   ],
   "note": ""
  },
  {
   "property": "C43",
   "status": "proved",
   "theorems": [
    "C43_alias"
   ],
   "note": ""
  },
  {
   "property": "C44",
   "status": "partial",
   "theorems": [
    "C44_calls_partial",
    "C44_call_partial",
    "C44_finite",
    "C44_refuted"
   ],
   "note": "False in general: an unused sqrt(x) at 0 turns dy/dx into NaN (C44_refuted). Proved bit for bit, in any arithmetic and for any sequence of calls, whenever the unused operations' own steps add nothing at adjoint zero; in binary64: whenever the amounts they record are zeros, i.e. the local derivatives are finite."
  },
  {
   "property": "C45",
   "status": "proved",
   "theorems": [
    "C45_is_nan",
    "C45_is_inf",
    "C45_is_neg_inf"
   ],
   "note": ""
  },
  {
   "property": "C46",
   "status": "proved",
   "theorems": [
    "C46_initial_values",
    "C46_parameters",
    "C46_general",
    "C46_jacobian",
    "C46_caller_unchanged",
    "C46_values",
    "C46_values_parameters",
    "C46_derivatives",
    "C46_derivatives_parameters"
   ],
   "note": "In exact real arithmetic, for every reachable state with storage below 2^30 tape words and no failing allocation. For callbacks that return; with parameters only three of them do (C48). C46_caller_unchanged holds in any arithmetic, for right-hand sides without matmul. C46_values and C46_values_parameters give the answer bit for bit in any arithmetic, say exactly when a callback does not return, and allow matmul and tests in the right-hand side. C46_derivatives: in exact arithmetic these answers are the sensitivity equations, with matmul and tests in the right-hand side, at points where no two equal numbers are compared."
  },
  {
   "property": "C47",
   "status": "partial",
   "theorems": [
    "C47_initial_values_partial",
    "C47_parameters_partial",
    "C47_initial_values_any_partial",
    "C47_parameters_any_partial",
    "C47_matmul_refuted",
    "C47_initial_values_exact_partial",
    "C47_parameters_exact_partial",
    "C47_covered",
    "C47_derivatives_partial",
    "C47_derivatives_parameters_partial"
   ],
   "note": "For an arbitrary integrator. False with matmul in the right-hand side in general; the exact theorems hold for right-hand sides whose matrix products keep to slots that never hold an independent variable (all those without matmul among them), and say in any arithmetic what is returned and when a call stops or overruns. C47_derivatives_partial: in exact arithmetic, with matmul (kept to such slots) and tests, the callbacks get the sensitivity equations and grad hands the delivered sensitivities to the independent variables."
  },
  {
   "property": "C48",
   "status": "partial",
   "theorems": [
    "C48_refuted",
    "C48_two_parameters_refuted"
   ],
   "note": "False: no parameter array of another size than three works. Three parameters: C46_parameters, C47_parameters_partial."
  },
  {
   "property": "C49",
   "status": "partial",
   "theorems": [
    "C49_record",
    "C49_record_op",
    "C49_record_dop",
    "C49_record_leaf",
    "C49_record_len_refuted",
    "C49_adj_curr_refuted"
   ],
   "note": "All readers exact except record_len and adj_curr, which are wrong."
  },
  {
   "property": "C50",
   "status": "proved",
   "theorems": [
    "C50_unary",
    "C50_var_var",
    "C50_var_real",
    "C50_real_var",
    "C50_sum",
    "C50_norm2",
    "C50_log_sum_exp",
    "C50_dot_var_var",
    "C50_dot_var_real",
    "C50_dot_real_var",
    "C50_partials",
    "C50_matmul_var_var",
    "C50_matmul_var_real",
    "C50_matmul_real_var"
   ],
   "note": "Any arithmetic, binary64 included; every reachable state with storage below 2^30 tape words and no failing allocation. Neutral constants (C16) and domain stops of acosh/atanh excluded."
  },
  {
   "property": "C51",
   "status": "proved",
   "theorems": [
    "C51_gradient",
    "C51_jacobian",
    "C51_full",
    "C51_gradient_if",
    "C51_jacobian_if"
   ],
   "note": "In exact real arithmetic, every reachable state with storage below 2^30 tape words and no failing allocation. Comparisons of a real with a variable (real first) are left out: they are reversed (C25). C51_full: on a storage filled to the last word end_nested writes outside it (C35)."
  },
  {
   "property": "C52",
   "status": "proved",
   "theorems": [
    "C52_cost"
   ],
   "note": "Any arithmetic, binary64 included; every reachable state, no failing allocation. Neutral constants (C16) excluded."
  },
  {
   "property": "C53",
   "status": "proved",
   "theorems": [
    "C53_gradient",
    "C53_jacobian",
    "C53_grad",
    "C53_stop",
    "C53_full",
    "C53_derivative",
    "C53_real"
   ],
   "note": "Any arithmetic, binary64 included: results are equal bit for bit, rounding, infinities and NaN included. Every reachable state, functions with branches and outer variables, no failing allocation. Neutral constants (C16) excluded; ReverseSpec gives the arithmetic of each step. C53_derivative, C53_real: in exact arithmetic reverse accumulation on the lines gives the derivatives of the function, below 2^30 tape words."
  },
  {
   "property": "C54",
   "status": "partial",
   "theorems": [
    "C54_session_partial",
    "C54_session",
    "C54_history",
    "C54_covered",
    "C54_gradient_partial",
    "C54_jacobian_partial",
    "C54_matmul_refuted"
   ],
   "note": "Proved for functions without matmul (C54_session_partial), and with matmul as long as no variable without an operation takes the place of an entry of an earlier matrix product (C54_session); also when the program had called matmul inside blocks before, if the places of the variables without an operation are slots kept apart from those products (C54_history). False otherwise: after the gradient of a function that calls matmul, another gradient goes out of bounds (C54_matmul_refuted)."
  },
  {
   "property": "C55",
   "status": "partial",
   "theorems": [
    "C55_near_partial",
    "C55_float_eq_partial",
    "C55_dbl_eq_partial",
    "C55_same",
    "C55_infinite",
    "C55_nan_refuted",
    "C55_array",
    "C55_matrix",
    "C55_size_refuted",
    "C55_sizes",
    "C55_int_logical"
   ],
   "note": "Holds for numbers and infinities and for arrays of the same shape; false for NaN, which passes against everything (C55_nan_refuted), and for arrays of different sizes (C55_size_refuted)."
  },
  {
   "property": "C56",
   "status": "proved",
   "theorems": [
    "C56_jacobian"
   ],
   "note": "Any arithmetic, binary64 included; every reachable state, functions with branches, matmul and outer variables, no failing allocation, storage not filled to its last word. Neutral constants (C16) excluded."
  },
  {
   "property": "C57",
   "status": "partial",
   "theorems": [
    "C57_released_partial",
    "C57_returns_partial",
    "C57_standard_refuted",
    "C57_unchecked_refuted"
   ],
   "note": "False by the Fortran standard: the statement serv = new_cvodes_service(...) finalises the old value of serv and the function result, so every call follows a dangling pointer (C57_standard_refuted). Proved for compilers that perform neither finalisation, when the creations whose result is not checked succeed; an unchecked failure is followed (C57_unchecked_refuted)."
  },
  {
   "property": "C58",
   "status": "partial",
   "theorems": [
    "C58_normal_any",
    "C58_normal",
    "C58_gradient_any",
    "C58_gradient",
    "C58_arrays",
    "C58_matmul",
    "C58_ode",
    "C58_ode_refuted"
   ],
   "note": "All programs proved with their constants and sizes as parameters. The ODE right-hand side is proved at every time but t = 1: there p(1)*p(2)*p(3)*t multiplies a computed variable by 1.0 (C16) and the sweep is undefined (C58_ode_refuted). The README declares d of the array program as a scalar; modelled as the array the text means."
  },
  {
   "property": "C59",
   "status": "proved",
   "theorems": [
    "C59_gradient",
    "C59_jacobian",
    "C59_factor",
    "C59_lines",
    "C59_chain_rule",
    "C59_unary",
    "C59_var_var",
    "C59_var_real",
    "C59_real_var",
    "C59_unary_slopes",
    "C59_binary_slopes",
    "C59_asin_refuted"
   ],
   "note": "Error of the reverse sweep relative to the derivatives at the computed values (slope_of; C59_chain_rule shows it is the chain rule), for operations whose derivative formula does not cancel; intrinsic functions accurate to k roundings. asin, acos and atanh are covered for x*x <= 1/2, acosh for x*x >= 2, logit for x <= 1/2; C59_asin_refuted shows half the digits lost near 1. erf, erfc, log_gamma, inv_logit, inv_square, log_sum_exp are not covered."
  },
  {
   "property": "C60",
   "status": "proved",
   "theorems": [
    "C60_normal",
    "C60_normal_mu",
    "C60_normal_sigma",
    "C60_normal_real",
    "C60_lognormal",
    "C60_lognormal_mu",
    "C60_lognormal_sigma",
    "C60_lognormal_real",
    "C60_sum"
   ],
   "note": "For every math library whose log (and constant log(sqrt(2 pi))) is right up to k roundings and whose sum is right up to n; left to right summation is, with n the length (C60_sum). Reachable states with storage below 2^30 tape words and no failing allocation."
  }
 ]
}