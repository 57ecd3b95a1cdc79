{"id": "C01", "title": "Stored reals come back bit-for-bit", "statement": "After x = var(d), x%val() returns exactly the real64 d: the same 64 bits, including signed zeros, infinities, subnormals and NaN payloads; the same holds for adjoints and for data operands recorded with an operation.", "quantifier": "every 64-bit pattern d and every reachable tape state", "why_tests_cant": "2^64 patterns and unboundedly many tape states; tests use a handful of ordinary numbers", "anchors": ["src/tape.F90:set_real_at", "src/tape.F90:get_real_at", "src/tape.F90:push_val", "src/var.F90:new_var_val"]}
{"id": "C02", "title": "A new variable is independent of every existing one", "statement": "Creating a variable (var(d), var(), or the result of any operation) returns a handle that no live variable has, with the requested value and adjoint zero, and changes neither the value nor the adjoint of any existing variable.", "quantifier": "every reachable history (including histories with nested blocks and gradient passes) and every created variable", "why_tests_cant": "must hold at every position of an unbounded history, including just before and after storage is enlarged or recycled", "anchors": ["src/vari.F90:new_vari_val", "src/vari.F90:new_vari_val_op", "src/tape.F90:push_val", "src/nested.F90:end_nested"]}
{"id": "C03", "title": "Enlarging the storage is invisible", "statement": "When the tape or the variable table is full and is doubled, every existing variable keeps its handle, value, adjoint and recorded operation, and the added storage reads as zero.", "quantifier": "every tape state and every requested extra size", "why_tests_cant": "the doubling happens at sizes that depend on the whole history; tests rarely cross a boundary in every kind of push", "anchors": ["src/tape.F90:alloc_storage", "src/vari.F90:alloc_vari_stack_n"]}
{"id": "C04", "title": "Results do not depend on the initial stack size", "statement": "Two builds that differ only in FZ_INIT_STACK_LEN give bit-identical values and adjoints for the same sequence of calls.", "quantifier": "every pair of positive initial sizes and every call sequence that fits the index range in both", "why_tests_cant": "relational property over two configurations and all call sequences", "anchors": ["src/env.F90:init_vari_stack_size", "src/env.F90:init_tape_size", "src/tape.F90:alloc_storage"]}
{"id": "C05", "title": "No out-of-bounds access", "statement": "A sequence of forward operations on valid variables, resets, gradient passes and properly bracketed nested blocks never reads or writes outside the allocated tape or variable table.", "quantifier": "every call sequence of any length on valid handles that fits in the 32-bit index range", "why_tests_cant": "a single out-of-bounds index anywhere in an unbounded history is a failure and is silent without bounds checking", "anchors": ["src/tape.F90", "src/vari.F90", "src/var.F90:grad", "src/nested.F90"]}
{"id": "C06", "title": "Storage growth terminates and only fails past the index range", "statement": "Every request for storage terminates; it succeeds whenever the words needed stay below 2^30, and the only other outcome is overflow of the 32-bit size.", "quantifier": "every request size and every storage size reachable from a positive initial size", "why_tests_cant": "termination and the overflow threshold concern sizes no test allocates", "anchors": ["src/tape.F90:alloc_storage", "src/vari.F90:alloc_vari_stack_n"]}
{"id": "C07", "title": "Forward values equal plain evaluation", "statement": "The value of every variable equals what the same expression gives when evaluated on plain real64 numbers with the Fortran intrinsics, bit for bit.", "quantifier": "every operation sequence and every operand value", "why_tests_cant": "all programs and all values; tests compare a few points per function", "anchors": ["src/add.F90", "src/sub.F90", "src/mul.F90", "src/div.F90", "src/pow.F90", "src/sin.F90", "src/matmul.F90"]}
{"id": "C08", "title": "grad gives the partial derivatives with respect to independent variables", "statement": "After a sequence of operations, y%grad() leaves in x%adj() the partial derivative of y with respect to each independent variable x at the current point (exact real arithmetic).", "quantifier": "every operation sequence of any length and sharing pattern whose operations are all inside their differentiability domains, every y, every independent x", "why_tests_cant": "chain rule over all programs; tests check a few compositions", "anchors": ["src/var.F90:grad", "src/vari.F90:set_operand_adj_all", "src/vari.F90:init_dependent"]}
{"id": "C09", "title": "grad gives derivatives with respect to intermediate variables", "statement": "After y%grad(), z%adj() for an intermediate variable z is the derivative of y with respect to z, all other variables created before z held fixed.", "quantifier": "every operation sequence in domain, every y and every intermediate z", "why_tests_cant": "as C08, for every intermediate position", "anchors": ["src/var.F90:grad", "src/vari.F90:set_operand_adj_all"]}
{"id": "C10", "title": "grad changes adjoints only", "statement": "y%grad() changes no variable's value, creates no variable, and leaves the recorded operations unchanged.", "quantifier": "every reachable state and every y", "why_tests_cant": "frame condition over all states", "anchors": ["src/var.F90:grad", "src/tape.F90:set_adj_at"]}
{"id": "C11", "title": "Reset and repeat", "statement": "set_zero_all_adj() makes every adjoint zero and changes nothing else; a grad after it gives the same adjoints as on a tape whose adjoints were never touched.", "quantifier": "every reachable state, every earlier sequence of grads, every y", "why_tests_cant": "frame condition plus history independence", "anchors": ["src/vari.F90:set_zero_all_adj", "src/grad.F90:set_zero_all_adj", "src/var.F90:grad"]}
{"id": "C12", "title": "grad without reset superposes", "statement": "If grad is called without a reset, the result is the linear superposition: each final adjoint is the sum over all variables of (adjoint before the call, with 1 for the dependent) times the derivative of that variable with respect to it.", "quantifier": "every operation sequence in domain and every assignment of starting adjoints", "why_tests_cant": "linear-algebra identity over arbitrary starting adjoints", "anchors": ["src/var.F90:grad", "src/vari.F90:set_operand_adj_all"]}
{"id": "C13", "title": "Variables the dependent does not use get adjoint zero", "statement": "After a reset and y%grad(), every variable from which y is not reachable through recorded operands has adjoint exactly zero.", "quantifier": "every operation sequence in domain, every y, every variable not upstream of y", "why_tests_cant": "reachability over all graphs", "anchors": ["src/var.F90:grad"]}
{"id": "C14", "title": "Elementary functions have the right derivative", "statement": "For each unary function (sin cos tan asin acos atan sinh cosh tanh asinh acosh atanh exp log sqrt square inv inv_sqrt logit inv_logit erf erfc, unary minus and plus) f(x)%grad() adds to x%adj() the adjoint times f'(x); for inv_logit below log(tiny), to within tiny^2.", "quantifier": "every point of each function's domain", "why_tests_cant": "continuum of points", "anchors": ["src/sin.F90", "src/cos.F90", "src/tan.F90", "src/asin.F90", "src/acos.F90", "src/atan.F90", "src/sinh.F90", "src/cosh.F90", "src/tanh.F90", "src/asinh.F90", "src/acosh.F90", "src/atanh.F90", "src/exp.F90", "src/log.F90", "src/sqrt.F90", "src/square.F90", "src/inv.F90", "src/inv_sqrt.F90", "src/logit.F90", "src/inv_logit.F90", "src/erf.F90", "src/erfc.F90"]}
{"id": "C15", "title": "Arithmetic operators have the right value and derivative", "statement": "+, -, * and / on any mix of var and real64 operands give the arithmetic value and propagate the partial derivatives to each var operand, also when both operands are the same variable.", "quantifier": "every pair of operand values in domain and every operand mix", "why_tests_cant": "continuum of points, aliasing of operands", "anchors": ["src/add.F90", "src/sub.F90", "src/mul.F90", "src/div.F90"]}
{"id": "C16", "title": "Neutral constants do not break derivatives", "statement": "Adding or subtracting 0.d0, multiplying or dividing by 1.d0 leaves value and derivatives of the expression what they would be mathematically, for any operand.", "quantifier": "every operand variable, however it was computed", "why_tests_cant": "depends on how the operand was recorded; tests only try other constants", "anchors": ["src/add.F90:add_vd", "src/add.F90:add_dv", "src/sub.F90:sub_vd", "src/mul.F90:mul_vd", "src/mul.F90:mul_dv", "src/div.F90:div_vd"]}
{"id": "C17", "title": "Power operator", "statement": "x**y gives the power and its partial derivatives for var/var, var/real and real/var operands, including the special exponents 0.5, 1, 2, -1, -2, -0.5.", "quantifier": "every base and exponent in the differentiability domain", "why_tests_cant": "continuum of points plus a dispatch on the exponent", "anchors": ["src/pow.F90:pow_vv", "src/pow.F90:pow_vd", "src/pow.F90:pow_dv"]}
{"id": "C18", "title": "hypot", "statement": "hypot(a,b) with any var/real mix equals sqrt(a^2+b^2) and has partial derivatives a/hypot, b/hypot, also when the real argument is zero.", "quantifier": "every pair of arguments not both zero", "why_tests_cant": "continuum of points plus a zero special case", "anchors": ["src/hypot.F90:hypot_vv", "src/hypot.F90:hypot_vd", "src/hypot.F90:hypot_dv"]}
{"id": "C19", "title": "inv_square is 1/x**2", "statement": "inv_square(x) and x**(-2.d0) have value 1/x^2 and derivative -2/x^3.", "quantifier": "every nonzero x", "why_tests_cant": "the value is only ever right at special points, which sampling can miss or hit", "anchors": ["src/inv_square.F90:inv_square", "src/pow.F90:pow_vd"]}
{"id": "C20", "title": "sum of an array of variables", "statement": "sum(v) has value sum of the elements' values and adds the dependent's adjoint to every element, with multiplicity when an element occurs several times.", "quantifier": "every array length and content", "why_tests_cant": "unbounded lengths and repetition patterns", "anchors": ["src/sum.F90:sum_v", "src/sum.F90:chain_sum"]}
{"id": "C21", "title": "norm2 and log_sum_exp", "statement": "norm2(v) is the Euclidean norm and log_sum_exp(v) is log of the sum of exponentials, each with the right partial derivative for every element.", "quantifier": "every array length; every nonzero vector for norm2, every nonempty vector for log_sum_exp", "why_tests_cant": "unbounded lengths and a continuum of values", "anchors": ["src/norm2.F90:norm2_v", "src/log_sum_exp.F90:log_sum_exp_v", "src/log_sum_exp.F90:log_sum_exp_d"]}
{"id": "C22", "title": "dot_product", "statement": "dot_product(a,b) for var/var, var/real and real/var arrays of equal length has the right value and adds to each element the adjoint times the facing element, also when the arrays share variables.", "quantifier": "every length and content, including shared and repeated variables", "why_tests_cant": "unbounded lengths and aliasing patterns", "anchors": ["src/dot_product.F90:dot_prod_vv", "src/dot_product.F90:dot_prod_vd", "src/dot_product.F90:dot_prod_dv"]}
{"id": "C23", "title": "matmul", "statement": "matmul(A,B) for var/var, var/real and real/var matrices of conforming shapes gives every entry's value and, after grad of entry (i,j), the partial derivative with respect to every element of A and B.", "quantifier": "every triple of dimensions, every entry (i,j), every content", "why_tests_cant": "index arithmetic on column-major storage for all shapes", "anchors": ["src/matmul.F90:mat_mul_vv", "src/matmul.F90:mat_mul_vd", "src/matmul.F90:mat_mul_dv", "src/array_in_tape.F90"]}
{"id": "C24", "title": "Matrices stored on the tape are read back by row and column", "statement": "A matrix of variables or of reals pushed to the tape has nrow, ncol, every row and every column equal to those of the original matrix; a one-dimensional array has its length and elements.", "quantifier": "every shape and content", "why_tests_cant": "index arithmetic over all shapes", "anchors": ["src/array_in_tape.F90", "src/tape.F90:matrix_row_index", "src/tape.F90:matrix_col_index", "src/tape.F90:matrix_row_data", "src/tape.F90:matrix_col_data"]}
{"id": "C25", "title": "Comparisons compare values in the written order", "statement": "a == b, /=, <, <=, >, >= with var/var, var/real and real/var operands return the comparison of the values in the order written.", "quantifier": "every pair of values and every operand mix", "why_tests_cant": "all orderings of a continuum of values; the suite never mixes real on the left", "anchors": ["src/relational.F90"]}
{"id": "C26", "title": "abs", "statement": "abs(x) has value |x|, derivative sign(x) away from zero, adjoint contribution zero at zero, and NaN in, NaN out for value and adjoint.", "quantifier": "every value of x, however x was computed", "why_tests_cant": "sign cases over a continuum and over all operand histories", "anchors": ["src/abs.F90:abs_v", "src/abs.F90:chain_abs"]}
{"id": "C27", "title": "Domain errors stop the program", "statement": "acosh(x) stops for x <= 1 and atanh(x) stops for |x| >= 1; inside the domain they never stop; NaN is passed through.", "quantifier": "every value of x", "why_tests_cant": "boundary cases over a continuum; a stopped process is hard to assert in the unit-test harness", "anchors": ["src/acosh.F90:acosh_v", "src/atanh.F90:atanh_v"]}
{"id": "C28", "title": "inv_logit and logit", "statement": "inv_logit(x) is within 2.3e-308 of 1/(1+exp(-x)) and in [0,1] for every x, exact (in real arithmetic) above the underflow threshold; logit inverts it on (0,1).", "quantifier": "every real x", "why_tests_cant": "three branches over a continuum, bound not observable by sampling", "anchors": ["src/inv_logit.F90:inv_logit_d", "src/logit.F90:logit_d"]}
{"id": "C29", "title": "var_with_partials propagates user partials", "statement": "v = var_with_partials(value, operands, partials) has the given value and grad adds adjoint*partials(i) to operand i for every i.", "quantifier": "every operand list (any length, repeated operands) and every value/partials", "why_tests_cant": "unbounded operand lists", "anchors": ["src/chain_eager_adj.F90:var_with_partials", "src/chain_eager_adj.F90:chain_eager_adj"]}
{"id": "C30", "title": "normal_lpdf", "statement": "normal_lpdf(y,mu,sigma) equals the log of the product of normal densities, and its derivatives with respect to var mu and/or sigma are those of that function, for all var/real mixes.", "quantifier": "every data array length and content, every mu, every sigma>0", "why_tests_cant": "unbounded data length and a continuum of parameters", "anchors": ["src/prob/normal_lpdf.F90"]}
{"id": "C31", "title": "lognormal_lpdf", "statement": "lognormal_lpdf(y,mu,sigma) equals the log of the product of lognormal densities, and its derivatives with respect to var mu and/or sigma are those of that function, for all var/real mixes.", "quantifier": "every data array with positive entries, every mu, every sigma>0", "why_tests_cant": "unbounded data length and a continuum of parameters", "anchors": ["src/prob/lognormal_lpdf.F90"]}
{"id": "C32", "title": "log_gamma gradient uses digamma with its documented error returns", "statement": "log_gamma(x)%grad() adds adjoint*digamma(x) to x%adj(); digamma returns -XINF/+XINF exactly in its documented error regions and applies the reflection formula psi(1-x) = psi(x) + pi*cot(pi*x) for x < 1/2.", "quantifier": "every real x", "why_tests_cant": "goto-structured branches over a continuum", "anchors": ["src/log_gamma.F90", "src/digamma.F90:digamma"]}
{"id": "C33", "title": "A nested block leaves no trace", "statement": "After begin_nested() ... end_nested(), with any well-bracketed work in between, the variables created before have unchanged handles and values, the ones created inside are gone, and the free storage is zero again, so the next variable gets the same handle and location as if the block had not run.", "quantifier": "every history before, every well-bracketed block body, nesting up to the supported depth", "why_tests_cant": "all block bodies and all histories", "anchors": ["src/nested.F90:begin_nested", "src/nested.F90:end_nested"]}
{"id": "C34", "title": "Nested environments can be nested", "statement": "Multiple levels of nested environment are supported: begin_nested() may be called inside a nested block to any depth the program needs.", "quantifier": "every nesting depth", "why_tests_cant": "tests nest two deep; the failure is at a fixed larger depth", "anchors": ["src/nested.F90:begin_nested", "src/nested.F90:max_nested_stack"]}
{"id": "C35", "title": "end_nested never writes outside the storage", "statement": "end_nested() only clears words that belong to the tape, whatever the fill state of the storage.", "quantifier": "every reachable state with an open nested block", "why_tests_cant": "depends on the storage being exactly full or not yet allocated", "anchors": ["src/nested.F90:end_nested"]}
{"id": "C36", "title": "Unmatched end_nested is harmless", "statement": "Calling end_nested() with no open nested block changes nothing, and set_zero_nested_adj / grad_nested outside a block do not touch memory they should not.", "quantifier": "every reachable state with no open block", "why_tests_cant": "all states", "anchors": ["src/nested.F90:end_nested", "src/nested.F90:set_zero_nested_adj", "src/nested.F90:curr_nested_vari_head", "src/var.F90:grad_nested"]}
{"id": "C37", "title": "gradient() returns value and partial derivatives", "statement": "gradient(f,x) returns the value of f at x followed by all partial derivatives, for any f written with the library's operations, called in any reachable state.", "quantifier": "every function body in domain, every x, every state in which it is called", "why_tests_cant": "all programs and all prior histories", "anchors": ["src/grad.F90:gradient"]}
{"id": "C38", "title": "gradient() and jacobian() do not disturb the caller's adjoints", "statement": "A call of gradient or jacobian leaves the values and adjoints of all variables that existed before the call unchanged.", "quantifier": "every prior state, including states with nonzero adjoints, and every function body", "why_tests_cant": "depends on the prior state's adjoints; tests call it on an empty tape", "anchors": ["src/grad.F90:gradient", "src/grad.F90:jacobian", "src/var.F90:grad"]}
{"id": "C39", "title": "jacobian() returns all values and all partial derivatives", "statement": "jacobian(f,n,x) returns an n x (1+size(x)) array: column 1 the values, entry (i,1+j) the partial derivative of f_i with respect to x_j; rows do not influence each other.", "quantifier": "every vector function in domain (outputs may coincide or be inputs), every n, every x, every calling state", "why_tests_cant": "all programs, all output counts and sharing patterns", "anchors": ["src/grad.F90:jacobian", "src/nested.F90:set_zero_nested_adj"]}
{"id": "C40", "title": "grad_nested only visits the innermost block", "statement": "Inside a nested block, y%grad_nested() gives the same adjoints to the block's variables as grad, and leaves adjoints of variables outside the block unchanged when the block does not use them.", "quantifier": "every block body in domain, every y in the block, every outer state", "why_tests_cant": "all bodies and all outer states", "anchors": ["src/var.F90:grad_nested", "src/nested.F90:curr_nested_vari_head"]}
{"id": "C41", "title": "Recycled variable slots behave like fresh ones", "statement": "A variable created after a nested block, in a slot the block had used, behaves exactly like one created in a never-used slot (in particular an independent variable propagates nothing in a gradient pass).", "quantifier": "every block body and every later history", "why_tests_cant": "depends on what operation the earlier occupant of the slot recorded", "anchors": ["src/nested.F90:end_nested", "src/vari.F90:new_vari_val", "src/matmul.F90:chain_matmul_vv"]}
{"id": "C42", "title": "Assigning a real to a variable changes only its value", "statement": "x = d (scalar, 1-D or 2-D, from scalar or array) sets the value of x to d and changes no adjoint, no other variable's value and no recorded operation.", "quantifier": "every reachable state, every variable and value, every array shape", "why_tests_cant": "frame condition over all states", "anchors": ["src/var.F90:set_var_0d", "src/var.F90:set_var_1d", "src/var.F90:set_var_2d", "src/var.F90:set_var_1d_from_0d", "src/var.F90:set_var_2d_from_0d"]}
{"id": "C43", "title": "Operations that return their argument alias it", "statement": "y = x, +x, x**1.d0 and abs of a positive x return the same variable: they always have equal value and adjoint, and no new variable is created.", "quantifier": "every reachable state and every x", "why_tests_cant": "all later histories", "anchors": ["src/add.F90:pos", "src/pow.F90:pow_vd", "src/abs.F90:abs_v"]}
{"id": "C44", "title": "Unrelated operations cannot contaminate a gradient", "statement": "Evaluating an operation whose result the dependent does not use never changes the gradient of the dependent, even if that operation is at a singular point (for example sqrt at 0).", "quantifier": "every operation sequence in IEEE double arithmetic", "why_tests_cant": "depends on 0*inf and 0/0 in operations unrelated to the dependent", "anchors": ["src/var.F90:grad", "src/sqrt.F90:chain_sqrt"]}
{"id": "C45", "title": "NaN and infinity tests", "statement": "is_nan, is_inf and is_neg_inf are true exactly for NaN, +infinity and -infinity.", "quantifier": "every 64-bit pattern", "why_tests_cant": "2^64 patterns", "anchors": ["src/arith.F90:is_nan_d", "src/arith.F90:is_inf", "src/arith.F90:is_neg_inf"]}
{"id": "C46", "title": "ODE sensitivity right-hand side", "statement": "The sensitivity right-hand side given to the integrator is J(t,y) s_j + df/dp_j for each parameter sensitivity s_j, and J(t,y) s_j for initial-value sensitivities, where J is the Jacobian of the user's right-hand side.", "quantifier": "every user right-hand side in domain, every dimension, every t, y, p and sensitivity vectors, every calling state", "why_tests_cant": "all right-hand sides and dimensions", "anchors": ["src/cvodes_model.F90:set_sens_rhs", "src/cvodes_model.F90:calc_jac_yvar"]}
{"id": "C47", "title": "ODE solutions carry the solver's sensitivities", "statement": "Each entry yt(i,k) returned by cvodes_sol has the solver's value and grad on it gives each initial value or parameter the solver's sensitivity.", "quantifier": "every dimension, every number of output times, every solver output", "why_tests_cant": "all dimensions and solver outputs", "anchors": ["src/cvodes.F90:cvodes_sol_y0_sens", "src/cvodes.F90:cvodes_sol_par_sens", "src/cvodes.F90:new_cvodes_service"]}
{"id": "C48", "title": "ODE parameter sensitivities work for any number of parameters", "statement": "cvodes_sol with a parameter array supports parameter arrays of any size.", "quantifier": "every number of parameters", "why_tests_cant": "tests use three parameters, the one size that works", "anchors": ["src/cvodes_model.F90:set_sens_rhs"]}
{"id": "C49", "title": "Operands and data operands of an operation are read back", "statement": "For a record pushed with any operand list and data list, the operand count, operand indices, operand values and data operands read back are those pushed; the reported record length is the number of words used; the adjoint at the head is the adjoint.", "quantifier": "every operand list and data list", "why_tests_cant": "all list lengths; tests use one or two", "anchors": ["src/tape.F90:push_val_op", "src/tape.F90:push_val_op_dop", "src/tape.F90:push_val_dop", "src/tape.F90:operand_val", "src/tape.F90:data_operand", "src/tape.F90:record_len", "src/tape.F90:adj_curr"]}
{"id": "C50", "title": "Exact arithmetic of each gradient step", "statement": "For every operator, elementary function, reduction, dot product, matrix product and eager-partials call, the result's value and the amounts its gradient step adds to each operand's adjoint are exactly the stated sequence of floating-point operations on the operand values, the result value and the adjoint, applied in the stated order; nothing else changes.", "quantifier": "every operand value (zeros, infinities and NaNs included), every adjoint, every calling state, every array length and matrix shape, any arithmetic", "why_tests_cant": "all bit patterns and shapes; tests compare rounded results at a few points", "anchors": ["src/vari.F90", "src/add.F90", "src/mul.F90", "src/div.F90", "src/pow.F90", "src/hypot.F90", "src/sum.F90", "src/norm2.F90", "src/log_sum_exp.F90", "src/dot_product.F90", "src/matmul.F90", "src/var.F90", "src/chain_eager_adj.F90"]}
{"id": "C51", "title": "Gradients of functions that branch", "statement": "A function handed to gradient or jacobian may test comparisons (==, /=, <, >, <=, >=) between variables, or between a variable and a real, and go on differently. If, on the way taken from the given point, every library call is inside its domain and no test compares equal numbers, the call returns the value(s) and the partial derivatives of the function as a whole (branches included) at that point. It returns on every storage except one that the call fills to the last word.", "quantifier": "every such function, every point meeting the condition, every calling state with less than ten levels open, any captured outer variables", "why_tests_cant": "all functions, all branch structures and all points; a test fixes one function and one branch", "anchors": ["src/grad.F90:gradient", "src/grad.F90:jacobian", "src/relational.F90", "src/nested.F90:end_nested"]}
{"id": "C52", "title": "Exact storage cost of a call", "statement": "Each call advances the tape by exactly the stated number of words (six per new variable, one per operand, two per stored real, plus both factors with their dimensions for a matrix product; nothing when an operand is handed back) and creates exactly the stated number of variables. The tape storage is unchanged if that fits, and otherwise becomes the smallest doubling of the initial size that holds it.", "quantifier": "every call with non-neutral constants, every operand value, every array length and matrix shape, every calling state, any arithmetic", "why_tests_cant": "all shapes and fill levels; growth happens only at particular fill levels", "anchors": ["src/vari.F90", "src/tape.F90", "src/matmul.F90", "src/array_in_tape.F90", "src/abs.F90", "src/pow.F90"]}
{"id": "C53", "title": "Gradients equal reverse accumulation bit for bit", "statement": "gradient(f, x) and jacobian(f, x) return exactly the numbers obtained by evaluating f line by line on plain numbers and then letting the lines, from the last to the first, add their contributions to the adjoints of their operands in order, starting from 1 at the result. This holds in the machine arithmetic, rounding, infinities and NaN included, whatever was recorded before, in whatever nesting, on recycled storage, for functions that branch and use outer variables. f(x) followed by grad gives the same adjoints to all variables f creates. If a call on the way stops, gradient and jacobian stop; if the storage is filled to its last word they go out of bounds.", "quantifier": "every arithmetic, every user function built from library calls and comparisons, every argument, every outer variables, every reachable calling state with nesting below ten and storage below 2^30 words", "why_tests_cant": "all functions, histories and recycled slots; results equal for every bit pattern", "anchors": ["src/grad.F90", "src/nested.F90", "src/vari.F90", "src/var.F90", "src/tape.F90", "src/relational.F90", "src/matmul.F90"]}
{"id": "C54", "title": "Gradients can be asked for again and again", "statement": "A program may call gradient and jacobian any number of times, choosing each function and each point from the answers it got so far (an optimiser, a sampler). Every answer is the one of C53, as if it were the first call. After each call the caller's variables, their values and operations, the nesting level and the end of the tape are as before, and the program may go on with any other call. It ends otherwise only if a call stops or if the storage is filled to its last word.", "quantifier": "every adaptive sequence of calls of any length, every arithmetic, every function with branches and outer variables, every reachable starting state with nesting below ten and storage below 2^30 words", "why_tests_cant": "sequences of any length whose later calls depend on earlier answers; state carried over between calls", "anchors": ["src/grad.F90", "src/nested.F90", "src/vari.F90", "src/tape.F90"]}
{"id": "C55", "title": "Test assertions let only matching values pass", "statement": "An assertion of the test module returns only if its arguments agree: expect_near(a, b, tol) only if the exact difference of a and b is below tol, expect_dbl_eq only below 2**(-50), expect_float_eq only below 2**(-21), for arrays for every element; otherwise it stops the program. Identical data always pass.", "quantifier": "every pair of real64 data including infinities and NaN, every tolerance, arrays of every size", "why_tests_cant": "these are the tests: nothing checks that they can fail; all bit patterns and sizes", "anchors": ["src/test.F90"]}
{"id": "C56", "title": "A jacobian is the gradients of the components", "statement": "jacobian(f, x) returns the same numbers, bit for bit, as calling gradient for each component of f in turn, and it leaves the caller's variables, their values and their adjoints as these calls together would leave them.", "quantifier": "every arithmetic, every user function with any number of results built from library calls (matmul included) and comparisons, every argument and outer variables, every reachable calling state, nonzero adjoints included, with nesting below ten and storage below 2^30 words", "why_tests_cant": "all functions, states and prior adjoints; exact equality of two different sequences of sweeps", "anchors": ["src/grad.F90:jacobian", "src/grad.F90:gradient", "src/nested.F90", "src/var.F90"]}
{"id": "C57", "title": "cvodes_sol releases what it creates", "statement": "A call of cvodes_sol releases every SUNDIALS object it created exactly once and does not use one before it is created or after it is released, whichever calls to SUNDIALS fail.", "quantifier": "every number of sensitivities and output times, every pattern of failing SUNDIALS calls, every set of objects that existed before; the finalisation semantics of Fortran 2018", "why_tests_cant": "depends on what the compiler finalises and on failures of the external library", "anchors": ["src/cvodes.F90:new_cvodes_service", "src/cvodes.F90:free_cvodes_service", "src/cvodes.F90:cvodes_sol_data", "src/cvodes.F90:cvodes_sol_y0_sens", "src/cvodes.F90:cvodes_sol_par_sens"]}
{"id": "C58", "title": "The documented programs compute what the text says", "statement": "The programs of README.md and of the user guide give the results the text describes: var_grad_test and grad_test give the derivatives of the normal log density by mu and sigma (and its value); the array program prints c%adj() = 1 at the chosen element and 0 elsewhere; the matmul loop sees at each z(i,j) the derivatives of that entry by all entries of x and y; the ODE right-hand side yields its sensitivities by all three parameters at every time.", "quantifier": "every data, parameter value and array or matrix size in place of the constants of the text, from every reachable state with storage below 2^30 words; the density programs in any arithmetic as exact sequences of operations and in real arithmetic, the others in real arithmetic", "why_tests_cant": "all data values, sizes and starting states; the time at which the ODE example fails is one point", "anchors": ["README.md:12-38", "README.md:51-57", "README.md:139-155", "README.md:161-176", "README.md:206-213", "example/ode/param.F90:22-30"]}
{"id": "C59", "title": "Accuracy of gradients in binary64", "statement": "In binary64 arithmetic every component of the gradient (and of every row of a jacobian) differs from the exact sum over paths of the products of the derivatives of the operations, taken at the values the program computed, by at most ((1+2^-53)^N - 1) times the same sum with all terms made positive, where N is (6+2k) times the number of lines recorded plus the number of operands; hence by at most 2*N*2^-53 times that sum when N*2^-53 <= 1/2. Each single reverse step equals the true derivative of the operation times the adjoint up to at most 6+2k roundings. This holds as long as nothing overflows, underflows or divides by zero, for operations at arguments where their derivative formula does not cancel; k is the accuracy, in roundings, of the intrinsic functions that give derivatives.", "quantifier": "every user function built from the covered operations, comparisons and outer variables, every binary64 argument, every intrinsic library accurate to k roundings, every reachable calling state with nesting below ten and storage below 2^30 words", "why_tests_cant": "all arguments, functions and depths; tests compare with tolerances at a few points", "anchors": ["src/grad.F90", "src/var.F90", "src/add.F90", "src/sub.F90", "src/mul.F90", "src/div.F90", "src/sqrt.F90", "src/log.F90", "src/atan.F90", "src/asinh.F90", "src/asin.F90", "src/matmul.F90", "src/dot_product.F90"]}
{"id": "C60", "title": "Accuracy of the densities in binary64", "statement": "The value and the partial derivatives that gradient returns for normal_lpdf and lognormal_lpdf differ from the log likelihood of the data and its derivatives by mu and sigma by no more than a few roundings of each term of the sums over the data: for the normal density five roundings of each term (y-mu)/sigma**2, ten of the terms (y-mu)**2/sigma**3 and 1/sigma, ten and the roundings of log for the value, plus what sum itself loses. For the lognormal density log(y)-mu may cancel, so the distance counts as |log y|+|mu|.", "quantifier": "all data arrays of any length, all mu and sigma > 0, every math library whose log and constant are right up to k roundings, every way of summing that is right up to n roundings, as long as nothing overflows or underflows; every reachable starting state with nesting below ten, storage below 2^30 words not filled to its last word", "why_tests_cant": "a bound for all data and all rounding errors", "anchors": ["src/prob/normal_lpdf.F90", "src/prob/lognormal_lpdf.F90", "src/chain_eager_adj.F90", "src/grad.F90"]}
