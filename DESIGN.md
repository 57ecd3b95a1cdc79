# Formal model of fazang

Fazang is a Fortran reverse-mode automatic differentiation library. This
directory holds a Rocq (Coq 8.16.1) model of it and proofs about that model.
`properties.jsonl` lists the properties in English, `MANIFEST.json` maps each to
theorems.

## What is modelled

Model files (no proofs in them), in `rocq/theories/`:

| file | models |
|---|---|
| `Base.v` | outcomes (`Ok`, `ErrStop`, `Undef`, `OutOfFuel`), int32 range, memories |
| `Num.v` | the arithmetic interface, build configuration, array conformance |
| `Tape.v` | `src/tape.F90` |
| `Digamma.v` | `src/digamma.F90` |
| `Chains.v` | `src/array_in_tape.F90` and every `chain_*` procedure |
| `Vari.v` | `src/vari.F90`, `src/var.F90`, `src/nested.F90`, `src/grad.F90` |
| `Ops.v` | every operation module, `src/prob/*`, `src/relational.F90`, straight-line programs |
| `Cvodes.v` | the parts of `src/cvodes_model.F90`, `src/cvodes.F90` that touch the tape |
| `Service.v` | lifetime of the SUNDIALS objects in `src/cvodes.F90` |
| `Expect.v` | `src/test.F90` |
| `Docs.v` | programs of `README.md`, `doc/`, right-hand side of `example/ode/param.F90` |
| `Arrays.v` | 2-d creation and assignment (`src/var.F90`), `src/value_of.F90` |
| `Session.v` | sequences of library calls, reachable states |
| `RNum.v`, `B64.v` | the two arithmetics: exact reals, IEEE binary64 on two int32 words |

Arithmetic is an interface (`Num`). Storage, safety, nesting and value theorems
hold for every arithmetic that satisfies the three representation laws
(`RepLaws`), hence for both instances. Derivative theorems are about exact reals.
Refutations that need IEEE behaviour use binary64.

Undefined behaviour is a distinct outcome: out-of-bounds index, int32 overflow
of a size, nonconforming array shapes. The nonconforming case has two readings,
selected by `Cfg.junk`: undefined (the standard), or arbitrary contents (what
compiled code does). Theorems state which reading they need; most hold in both.

## How properties are proved

* `Graph.v`: an abstract machine. The state is a list of nodes (value, adjoint,
  operands as node numbers, data operands), a list of matrices and one chain tag
  per slot. `Refine*.v` prove that the concrete tape implements it (`Rel`).
* `Forward.v`: executing a program on the concrete state appends the nodes that
  plain evaluation predicts.
* `Deriv*.v`: per-operation derivative rules on reals and the chain rule over
  programs.
* `Adjoint.v`: the reverse sweep computes the transpose of the tangent map.
* `Properties_*.v`: only theorems (`exact lemma`), `Print Assumptions` beneath,
  and a non-vacuity `Example` beside each.

## Proof files

`TapeFacts`, `Refine`, `RefineChain`, `RefineOps`, `RefineSession`: refinement to
`Graph`. `Valid`, `Observe`, `Frames`, `Blocks`, `Reach`, `Storage`, `Twin`:
invariants of reachable states. `Claims_storage`, `Claims_session`, `ArraysFacts`,
`Findings`: lemmas of the first two Properties files. `Calculus`, `Adjoint`,
`Deriv`, `DerivProg`, `Track`, `Claims_deriv` ... `Claims_abs`: derivatives.
`Claims_lpdf`, `Exact`, `Claims_exact`, `Exact_mat`, `Claims_idle`, `Claims_logit`,
`Claims_digamma`: Properties_more. `CvodesFacts`, `CvodesDrive`, `Claims_cvodes`,
`Findings_cvodes`: Properties_cvodes. Specifications, to be read with the theorem
statements: `RSpec` (derivatives, densities), `ArrSpec` (matrices), `ExactSpec`
(sequences of floating-point operations), `CvodesSpec`, `BranchSpec` (user functions
with branches), `CostSpec` (storage), `ReverseSpec` (reverse accumulation on lines),
`RelSpec` (comparisons of extended reals), `RepeatSpec` (sequences of gradient calls),
`SensSpec` (cvodes_sol on plain numbers),
`SmoothSpec` (right-hand sides as real functions), `DocsSpec` (results of the documented
programs).
`Claims_cost`, `Claims_branch`, `Claims_run`: Properties_branch. `Claims_reverse`,
`Claims_reverse2`: Properties_reverse. `Rename`, `Claims_repeat`,
`Findings_repeat`: Properties_repeat. `Blind`, `Steady`, `Claims_effect`,
`Claims_again`: Properties_effect. `Claims_expect`: Properties_expect.
`Claims_service`: Properties_service. `Claims_sens`, `Claims_drive`: Properties_sens.
`Claims_link`: Properties_smooth. `Claims_docs`, `Claims_docs2`: Properties_docs. `UnusedSpec` (specification),
`Claims_isq`, `Claims_unused`, `Claims_neutral`: Properties_extra. `AccSpec`
(specification), `Claims_acc`, `Claims_acc2`, `Claims_acc3`, `Claims_acc4`: Properties_acc.
`ApartSpec` (specification), `Claims_apart`: Properties_apart. `Claims_apart2`: Properties_apart2.
`DensSpec` (specification), `Claims_dens`: Properties_dens.
`TestMath`, `Repo_tests`: the repository's unit tests as runs of the model (tests, not
proofs).

## Plan per property

C01, C03, C06, C24, C49: lemmas about `Tape.v`. C02, C05, C10, C11, C33, C35, C36,
C41, C42, C43: refinement to the abstract machine, induction over call sequences.
C04: two concrete runs refine the same abstract run. C07: forward simulation.
C08, C09, C12, C13, C37, C39, C40: transpose theorem plus chain rule. C14, C15,
C17, C18, C20-C23, C26, C28-C31: per-operation instances. C13, C16, C18, C19, C25, C34,
C35, C38, C41, C44, C48, C49: the full statement is false of the code; a
`_refuted` theorem gives the witness, and a second theorem gives the part that
holds. C27, C45: case analysis in both arithmetics. C32: branch analysis of
digamma (that the rational approximations approximate psi is not proved). C46,
C47: model of the CVODES callbacks over an arbitrary integrator; the exact versions read
a callback as lines (C53) and go by induction over the integrator, with the technique of
C54 for matmul. C51: the run is that
of the straight-line path taken, and the path is the same in a neighbourhood of the
point; storage bookkeeping shows that the run ends. C52: storage bookkeeping. C53: the
nodes recorded since the start of the block are, one for one, the lines of
`ReverseSpec`; the sweep is `reverse` on them. C54: a call of gradient is a sequence of
client commands after renaming registers, so the state it leaves is reachable; induction
over the caller; with matmul, two states that differ only in chain pointers no call
will read answer alike (`Steady.v`), so each call can be analysed on a state without stale
pointers. C38 (`C38_effect`) and C56: no operation reads the nesting arrays (`Blind.v`), and
the sweep below the block reads only adjoints there, so row and gradient do the same. C55: Flocq's
rounding lemmas (a tolerance is representable, so rounding cannot carry a difference
across it) and induction over the loops of `src/test.F90`. C57: symbolic
execution of `Service.v`, induction over the output times. C58: the lines (C53) of each
program, written out; in the array and matmul programs only one line of each block has an
adjoint other than 0. C46 for the ODE. C13_gradient: induction over the reverse pass on the
lines (C53). C16_one_operand, C19_derivative_partial: the recorded step (C50).
C04_matmul, C05_matmul, C33_matmul, C41_matmul_partial, C41_leaf_partial: matmul inside
blocks. The same induction over call sequences with a weaker invariant (`neat`): stale
matmul chain pointers are allowed in slots not marked by P, and a variable without an
operation takes marked slots only. Without such a marking the claims fail (C41_refuted).
C59: each step of the lines (C53) is right up to a few roundings (Flocq's relative error
of one rounding); induction over the reverse pass carries the bound through the sums.
The slopes are the derivatives of the operations at the values the program computed; how
far those values are from the mathematical ones is not part of the claim. Covered: + - * /,
square, sqrt, inv, inv_sqrt, log, atan, asinh, neg, abs, sum, dot products, matmul, eager
partials; sin, cos, tan, sinh, cosh, tanh, exp, hypot, norm2 and powers with positive base
relative to the accuracy k of the intrinsic functions their derivatives use; asin, acos,
atanh where x*x <= 1/2, acosh where x*x >= 2 and logit where x <= 1/2, away from the points
where their derivative formula cancels. Not covered: these five near those points (there
the bound is false, C59_asin_refuted), inv_logit, log_sum_exp, erf, erfc, log_gamma,
inv_square.
C60: error bounds of the form "roundings times sum of absolute terms" compose under
products, differences and sums; one observation, then the sum over the data, then C53 for
gradient. How sum adds, log and the constant log(sqrt(2 pi)) are left open up to their
accuracy.

## Findings

Places where the code, as modelled, does not do what its documentation or the
property says. Each has a theorem with a witness or an exact characterisation.

| finding | where | theorem |
|---|---|---|
| `x+0.d0`, `x-0.d0`, `x*1.d0`, `x/1.d0` return x itself and overwrite its chain: a computed x loses its own derivative rule | `src/add.F90:43-65`, `sub`, `mul`, `div` | C16_refuted, C16_shape_refuted, C16_one_operand |
| `inv_square(x)` computes (1/x)*x, also used by `x**(-2.d0)` | `src/inv_square.F90:22-27` | C19_refuted, C07_refuted |
| real-var comparisons compare in the wrong order | `src/relational.F90:27` | C25_refuted, C25_swapped |
| `hypot(0.d0,v)` returns v, negative for v < 0, and overwrites its chain | `src/hypot.F90:41-51` | C18_refuted |
| `gradient`, `jacobian` sweep the whole tape and add to the caller's adjoints | `src/grad.F90:31-67` | C38_refuted, C38_jacobian_refuted |
| `end_nested` clears one word past the head: out of bounds on a full or unallocated tape | `src/nested.F90:32-44` | C35_refuted, C35_unallocated_refuted |
| an eleventh `begin_nested` writes past its array | `src/nested.F90:26-30` | C34_refuted, C34_depth |
| `set_zero_nested_adj`, `grad_nested` outside a block index element 0 | `src/nested.F90:17-22`, `src/var.F90:179-187` | C36_refuted, C36_always_refuted |
| a recycled slot keeps its old chain pointer; after matmul in a block an independent variable goes wrong | `src/vari.F90:117-124` | C41_refuted |
| `record_len` misreads the record; `adj_curr` reads the value | `src/tape.F90:190-194,348-353` | C49_record_len_refuted, C49_adj_curr_refuted |
| a 1-d real array on the tape stores no size | `src/array_in_tape.F90:49-58` | C24_real_array_refuted |
| an unused operation at a singular point turns gradients into NaN (0*Inf) | sweep | C44_refuted, C13_refuted |
| the gradient of a function using matmul makes a later gradient go out of bounds | stale chains again | C54_matmul_refuted |
| parameter sensitivities work for exactly three parameters | `src/cvodes_model.F90:178` | C48_refuted |
| an ODE right-hand side using matmul fails at its second callback | stale chains again | C47_matmul_refuted |
| storage doubling overflows int32 past 2^30 words | `src/tape.F90:76-81` | C06_tape |
| the assertions used by all tests accept NaN: `abs(a - b) >= tol` is false; arrays of different sizes pass or are read out of bounds | `src/test.F90` | C55_nan_refuted, C55_size_refuted |
| abs of NaN adds NaN to the adjoint; acosh(1) stops | `src/abs.F90`, `src/acosh.F90` | C26_abs, C27_acosh |
| `serv = new_cvodes_service(...)`: by Fortran 2018 7.5.6.3 the final procedure runs on the undefined old value of `serv` and on the function result, so the objects are released before they are used (a compiler that omits these finalisations hides it) | `src/cvodes.F90:144,183,237` | C57_standard_refuted |
| the ODE example of the README calls back at t with `p(1)*p(2)*p(3)*t`; if the integrator reaches t = 1.0 exactly, this is a neutral factor on a computed variable and the sweep is undefined | `README.md:211`, `example/ode/param.F90:28`, `src/mul.F90` | C58_ode_refuted |
| asin divides by `sqrt(1.d0 - x*x)`, which cancels near 1: at 1 - 2^-27 half the digits of the derivative are lost (`(1-x)*(1+x)` would keep them); acos, acosh, atanh, logit have the same pattern | `src/asin.F90`, `src/acos.F90`, `src/acosh.F90`, `src/atanh.F90`, `src/logit.F90` | C59_asin_refuted |
| the array example declares `d` as a scalar but uses `d(2)` | `README.md:140-150` | (read off the text) |
| failures to create the context, matrix, linear solver or sensitivity vectors are not checked | `src/cvodes.F90:62-112` | C57_unchecked_refuted |

Not expressible in the model, found by reading: the `abs` module is not exported by
`src/fazang.F90`; the static-stack builds do not compile; `cvodes_sol_par_sens` and
`cvodes_sol_data` overwrite the caller's initial values.

## Trusted base

* The Coq 8.16.1 kernel, with `vm_compute`.
* The axioms `Print Assumptions` lists (below). None of our own; only axioms of the
  Coq standard library.
* That the model reads the Fortran correctly. The code was never run.
* `allocate` does not fail for lack of memory. Intrinsics are functions of their
  arguments. Summation order inside `sum`, `dot_product`, `matmul`, `norm2` is an
  arbitrary fixed function (binary64) or exact (reals).
* Elemental calls on arrays are sequences of scalar calls in array order.
* In real arithmetic the decimal constants of `digamma.F90` are exact decimals, the
  parameters of `arith.F90` (pi, 2/sqrt(pi), log sqrt(2 pi)) their mathematical
  values, `huge` and `tiny` those of binary64.
* The SUNDIALS integrator is an arbitrary process (`Cvodes.solver`): it calls back
  with any arguments, any number of times, depending on earlier answers, and
  delivers any numbers. What it computes is not claimed.
* A user function is a finite tree of library calls (`Ops.op`) and tests of
  comparisons (`BranchSpec.fn`) for C51, and a straight-line program for the other
  claims about gradient, jacobian and ODE right-hand sides. A loop whose trip count
  does not depend on variables is such a program, unrolled.
* Not modelled: the `FZ_STACK_LEN` / `FZ_USE_STACK` builds (they do not compile:
  `init_vari_stack_size` is undefined at `src/env.F90:19`), `RhsFn` of
  `src/cvodes_model.F90` (it passes plain numbers to the user's right-hand side), the
  values `src/cvodes_options.F90` sets, printing, concurrency.
* Seen while reading, not expressed in the model: `src/cvodes.F90:235-236` makes
  `ode%pval` point to `pval`, which lacks the `target` attribute, so by the standard the
  pointer is undefined once `cvs_rhs` returns; the model takes it to be `pval`.

### Print Assumptions

Closed under the global context (96):

C01_value, C01_adjoint, C01_data, C02_new_var, C02_operations, C03_enlarging,
C04_initial_size, C04_matmul, C05_no_out_of_bounds, C05_matmul, C06_tape,
C06_table, C06_zero_length, C07_values_partial, C10_grad_frame, C11_reset,
C11_repeat, C13_gradient, C16_leaf_partial, C16_same_operator_partial,
C16_one_operand, C24_tapes, C24_var_matrix, C24_data_matrix, C24_var_array,
C25_partial, C25_swapped, C27_acosh, C27_atanh, C32_log_gamma, C33_no_trace,
C33_matmul, C34_partial, C34_depth, C35_partial, C36_end_partial,
C36_always_refuted, C38_effect, C40_inner, C41_partial, C41_matmul_partial,
C41_leaf_partial, C42_scalar, C42_array, C42_array_scalar, C42_matrix,
C42_matrix_scalar, C43_alias, C44_calls_partial, C46_caller_unchanged,
C46_values, C46_values_parameters, C47_initial_values_any_partial,
C47_parameters_any_partial, C47_initial_values_exact_partial,
C47_parameters_exact_partial, C47_covered, C48_refuted, C49_record,
C49_record_op, C49_record_dop, C49_record_leaf, C50_unary, C50_var_var,
C50_var_real, C50_real_var, C50_norm2, C50_log_sum_exp, C50_dot_var_var,
C50_dot_var_real, C50_dot_real_var, C50_partials, C50_matmul_var_var,
C50_matmul_var_real, C50_matmul_real_var, C52_cost, C53_gradient,
C53_jacobian, C53_grad, C53_stop, C53_full, C54_session_partial, C54_session,
C54_history, C54_covered, C54_gradient_partial, C54_jacobian_partial,
C55_sizes, C55_int_logical, C56_jacobian, C57_released_partial,
C57_returns_partial, C57_standard_refuted, C57_unchecked_refuted,
C58_normal_any, C58_gradient_any

Depend on `FunctionalExtensionality.functional_extensionality_dep` (1):

C50_sum

Depend on `ClassicalDedekindReals.sig_forall_dec`, `FunctionalExtensionality.functional_extensionality_dep` (2):

C59_factor, C59_chain_rule

Depend on `ClassicalDedekindReals.sig_forall_dec`, `ClassicalDedekindReals.sig_not_dec`, `Classical_Prop.classic`, `FunctionalExtensionality.functional_extensionality_dep` (134):

C01_bits, C07_refuted, C08_gradient, C09_intermediate, C12_superposition,
C13_unused, C13_older, C13_refuted, C14_unary, C14_grad, C14_inv_logit,
C15_var_var, C15_var_real_partial, C15_real_var_partial, C15_grad_var_var,
C15_grad_var_real_partial, C15_grad_real_var_partial, C16_refuted,
C16_shape_refuted, C17_var_var, C17_var_real_partial, C17_var_int_partial,
C17_real_var, C18_hypot_var_var, C18_hypot_real_partial, C18_refuted,
C19_refuted, C19_derivative_partial, C19_power_derivative_partial, C20_sum,
C21_norm2, C21_log_sum_exp, C22_dot_var_var, C22_dot_var_real,
C22_dot_real_var, C23_matmul_var_var, C23_matmul_var_real,
C23_matmul_real_var, C24_real_array_refuted, C25_binary64_partial, C25_finite,
C25_nan, C25_refuted, C26_abs, C26_binary64, C28_inv_logit,
C28_inv_logit_of_logit, C28_logit_of_inv_logit, C29_partials, C30_var_var,
C30_var_real, C30_real_var, C30_real_real, C30_in_program, C31_var_var,
C31_var_real, C31_real_var, C31_real_real, C31_in_program, C32_errors,
C32_reflection, C34_refuted, C35_refuted, C35_unallocated_refuted,
C36_refuted, C37_gradient, C38_gradient_partial, C38_refuted,
C38_jacobian_refuted, C39_jacobian, C40_outer, C41_refuted, C44_call_partial,
C44_finite, C44_refuted, C45_is_nan, C45_is_inf, C45_is_neg_inf,
C46_initial_values, C46_parameters, C46_general, C46_jacobian,
C46_derivatives, C46_derivatives_parameters, C47_initial_values_partial,
C47_parameters_partial, C47_matmul_refuted, C47_derivatives_partial,
C47_derivatives_parameters_partial, C48_two_parameters_refuted,
C49_record_len_refuted, C49_adj_curr_refuted, C51_gradient, C51_jacobian,
C51_full, C51_gradient_if, C51_jacobian_if, C53_derivative, C53_real,
C54_matmul_refuted, C55_near_partial, C55_float_eq_partial,
C55_dbl_eq_partial, C55_same, C55_infinite, C55_nan_refuted, C55_array,
C55_matrix, C55_size_refuted, C58_normal, C58_gradient, C58_arrays,
C58_matmul, C58_ode, C58_ode_refuted, C59_gradient, C59_jacobian, C59_lines,
C59_unary, C59_var_var, C59_var_real, C59_real_var, C59_unary_slopes,
C59_binary_slopes, C59_asin_refuted, C60_normal, C60_normal_mu,
C60_normal_sigma, C60_normal_real, C60_lognormal, C60_lognormal_mu,
C60_lognormal_sigma, C60_lognormal_real, C60_sum
