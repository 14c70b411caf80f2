{"id": "C01", "title": "Parameter registry: first registration wins, invalid ones never land", "statement": "After any sequence of register_param calls, the value reported for a name is the default of the first call that used that name with an allowed Python type (bool, int, float, str), every registered parameter has an allowed type, and a call that raises leaves the registry as it was.", "quantifier": "for every sequence of register_param calls, with arbitrary names, types and values, starting from any registry", "why_tests_cant": "Tests register a handful of names; the claim is about every interleaving of repeated, valid and rejected registrations.", "anchors": ["nrpy/params.py:NRPyParameter", "nrpy/params.py:register_param", "nrpy/params.py:glb_params_dict"]}
{"id": "C02", "title": "Reading back a parameter returns the last value set, and only that one changes", "statement": "set_parval_from_str(name, v) followed by parval_from_str(name) returns v and leaves what is read under every other name as it was; both raise ValueError exactly for unregistered names; parval_from_str('module::name') equals parval_from_str('name'); and after any history of registrations and sets each parameter's value is the one obtained by following that parameter alone.", "quantifier": "for every registry, every value, every sequence of registrations and sets; get/set laws for names without '::'", "why_tests_cant": "Doctests try two names; a wrong prefix rule or a frame violation needs particular names and histories to show.", "anchors": ["nrpy/params.py:parval_from_str", "nrpy/params.py:set_parval_from_str"], "first_stated": "set_parval_from_str(name, v) followed by parval_from_str(name) returns v and leaves every other parameter as it was; both raise ValueError exactly for unregistered names; parval_from_str('module::name') equals parval_from_str('name'), and set_parval_from_str accepts the same spellings."}
{"id": "C03", "title": "Every registered C parameter is well formed", "statement": "Whatever sequence of CodeParameter registrations is attempted, no stored parameter both asks to be in the parameter file and has no default; #define parameters are never in the parameter file nor in set_CodeParameters.h; REAL/int array parameters are commondata and never in set_CodeParameters.h; the assumption is Real or RealPositive.", "quantifier": "for every sequence of register_CodeParameter / register_CodeParameters calls with arbitrary arguments", "why_tests_cant": "It is an invariant of a global dictionary that all later code generation relies on; tests sample single constructor calls.", "anchors": ["nrpy/params.py:CodeParameter", "nrpy/params.py:register_CodeParameter", "nrpy/params.py:register_CodeParameters", "nrpy/params.py:glb_code_params_dict"]}
{"id": "C04", "title": "Bulk C-parameter registration is all-or-nothing and agrees with one-by-one registration", "statement": "register_CodeParameters with ill-fitting arguments raises and changes nothing. With fitting arguments and fresh distinct names it has the same outcome as registering each name in turn with register_CodeParameter, including where it stops. In general a successful call returns one symbol per name in order, stores for each name the parameter built from its last occurrence (replacing any earlier entry), and changes no other name.", "quantifier": "for every list of names, every scalar or list of defaults, every starting registry", "why_tests_cant": "The difference only shows when a name is already registered or when a later element of the list is rejected.", "anchors": ["nrpy/params.py:register_CodeParameters", "nrpy/params.py:register_CodeParameter"], "first_stated": "register_CodeParameters(names, defaults) has the same effect on the registry as registering each name in turn with register_CodeParameter, and when it raises the registry is unchanged."}
{"id": "C05", "title": "Gridfunction registry only ever holds valid gridfunctions", "statement": "After any history of gridfunction registrations every name is stored once, every entry belongs to BHaH, ETLegacy or CarpetX, has a group allowed by that infrastructure for BHaH and CarpetX, has a non-empty name not ending in a digit if registered as a base name, and never changes once stored; if tensor calls use valid base names and no antisymmetry, every key is a valid name or a valid base name followed by component indices.", "quantifier": "for every sequence of register_gridfunctions calls (any names, groups, infrastructures) from the empty registry", "why_tests_cant": "An invariant of a global dictionary over arbitrary histories, including rejected calls.", "anchors": ["nrpy/grid.py:GridFunction", "nrpy/grid.py:BHaHGridFunction", "nrpy/grid.py:ETLegacyGridFunction", "nrpy/grid.py:CarpetXGridFunction", "nrpy/grid.py:register_gridfunctions"], "first_stated": "After any history of gridfunction registrations every entry has a name that is non-empty and does not end in a digit before its tensor indices, a group allowed by its infrastructure, and re-registering a name never changes the stored entry."}
{"id": "C06", "title": "Gridfunction lists partition the registry, sorted", "statement": "gridfunction_lists() returns three lists in which every registered EVOL, AUX and AUXEVOL gridfunction appears exactly once, in the list of its own group, sorted case-insensitively, and nothing else appears.", "quantifier": "for every registry content and insertion order", "why_tests_cant": "A permutation/sortedness claim over all registries; tests see one.", "anchors": ["nrpy/grid.py:GridFunction.gridfunction_lists"]}
{"id": "C07", "title": "Gridfunction #define indices address distinct slots of the array", "statement": "The C macros generated for the EVOL, AUX and AUXEVOL groups number each group 0..NUM-1 without gaps or repeats, NUM equals the number of gridfunctions in the group, the per-gridfunction arrays are aligned with the numbering, and gridfunctions whose upper-cased names differ have distinct macros.", "quantifier": "for every registry and every pair of gridfunctions", "why_tests_cant": "Aliasing needs particular names (for instance ones differing only by case) or list lengths.", "anchors": ["nrpy/grid.py:BHaHGridFunction.gridfunction_defines", "nrpy/grid.py:GridFunction.gridfunction_lists"], "first_stated": "The C macros generated for the EVOL, AUX and AUXEVOL groups number each group 0..NUM-1 without gaps or repeats, NUM equals the number of gridfunctions in the group, and distinct gridfunctions have distinct macro names, so IDX4-indexing by macro never aliases two gridfunctions."}
{"id": "C08", "title": "Parity type encodes the tensor component", "statement": "set_parity_types gives scalars type 0, 3D vector component i type i+1, symmetric rank-2 component (i,j) in 3D the type 4..9 indexing i<=j in lexicographic order, and the closed form for rank 2 in 4D; in 3D components with different transformation behaviour never share a type; the result has one entry per gridfunction; other ranks and dimensions are refused.", "quantifier": "for every list of registered gridfunction names, ranks and dimensions", "why_tests_cant": "A claim about all names and dimensions; the collision needs a rank-1 four-dimensional gridfunction next to a rank-2 one.", "anchors": ["nrpy/grid.py:GridFunction.set_parity_types", "nrpy/infrastructures/BHaH/CurviBoundaryConditions/CurviBoundaryConditions.py:BHaH_defines_set_gridfunction_defines_with_parity_types"], "first_stated": "set_parity_types gives scalars type 0, vector component i type i+1, and symmetric rank-2 component (i,j) in 3D the type 4..9 indexing i<=j in lexicographic order; components with different transformation behaviour never share a type, and the result has one entry per gridfunction or an error is raised."}
{"id": "C09", "title": "Tensor registration registers every independent component once", "statement": "Registering a rank-1 gridfunction in 3D, or a rank-2 or rank-N gridfunction with any symmetric option, leaves exactly its independent components in the registry, each once, with the name the returned symbol carries, and component names are distinct for dimensions up to 10.", "quantifier": "for every base name, every symmetric option, every registry; dimensions from 1", "why_tests_cant": "Needs all dimensions and symmetries; tests use dimension 3.", "anchors": ["nrpy/grid.py:register_gridfunctions_for_single_rank1", "nrpy/grid.py:register_gridfunctions_for_single_rank2", "nrpy/grid.py:register_gridfunctions_for_single_rankN"], "first_stated": "Registering a rank-1, rank-2 or rank-N gridfunction leaves exactly its independent components (by the declared symmetry and dimension) in the registry, each once, with the name the returned symbol carries."}
{"id": "C10", "title": "Finite-difference coefficients are exact on polynomials up to the order", "statement": "For centred, upwinded, fully upwinded/downwinded first derivatives and centred second derivatives, the stencil returned by compute_fdcoeffs_fdstencl applied to any polynomial of degree at most fd_order (sampled at integer offsets) gives exactly its derivative at the origin.", "quantifier": "for every even finite-difference order, every supported operator and every polynomial of degree up to the order", "why_tests_cant": "Tests check orders 2 and 4 numerically; the claim is for every order and every polynomial.", "anchors": ["nrpy/finite_difference.py:setup_FD_matrix__return_inverse_lowlevel", "nrpy/finite_difference.py:compute_fdcoeffs_fdstencl"]}
{"id": "C11", "title": "The finite-difference matrix inversion is a true inverse without row swaps", "statement": "For every stencil width and offset, the LU factorisation used to invert the moment matrix meets only non-zero pivots, so no row is ever swapped, ignoring the permutation is harmless, and the returned matrix is the two-sided inverse.", "quantifier": "for every stencil width and every integer or half-integer offset", "why_tests_cant": "Pivoting depends on every intermediate Schur complement of every size.", "anchors": ["nrpy/finite_difference.py:setup_FD_matrix__return_inverse_lowlevel"]}
{"id": "C12", "title": "Kreiss-Oliger coefficients are alternating binomials that annihilate low-degree polynomials", "statement": "For dKOD at finite-difference order n, the coefficients are (-1)^(something)*binomial(n+2,j)/2^(n+2) with the sign that damps, they sum to zero, annihilate every polynomial of degree at most n+1 and the stencil has radius n/2+1.", "quantifier": "for every even finite-difference order", "why_tests_cant": "A closed form over all orders.", "anchors": ["nrpy/finite_difference.py:compute_fdcoeffs_fdstencl"]}
{"id": "C13", "title": "Upwind and downwind stencils are mirror images", "statement": "The dupD stencil is the ddnD stencil with offsets negated and coefficients negated, and the same for dfullupD/dfulldnD; centred first (second) derivative coefficients are odd (even) under reflection.", "quantifier": "for every even finite-difference order", "why_tests_cant": "Symmetry over all orders; a sign or shift slip may vanish at order 2.", "anchors": ["nrpy/finite_difference.py:compute_fdcoeffs_fdstencl"]}
{"id": "C14", "title": "Stencils stay inside the ghost zones", "statement": "Every stencil point returned has distinct offset, a non-zero coefficient, at most the declared radius in the differentiated direction (fd_order/2, plus one for upwind and dissipation, fd_order for fully one-sided) and zero offset in every other direction.", "quantifier": "for every even order, every derivative operator and direction", "why_tests_cant": "An out-of-bounds read only shows for a particular order/operator combination.", "anchors": ["nrpy/finite_difference.py:compute_fdcoeffs_fdstencl"]}
{"id": "C15", "title": "Mixed second derivatives are the product stencil and are exact", "statement": "For dDD with different directions the returned stencil applied to x^a*y^b with a,b at most fd_order gives the exact mixed derivative, and equals the composition of the two first-derivative stencils.", "quantifier": "for every even order, every ordered pair of distinct directions and all a,b up to the order", "why_tests_cant": "Universally quantified over orders and polynomials.", "anchors": ["nrpy/finite_difference.py:compute_fdcoeffs_fdstencl"]}
{"id": "C16", "title": "The finite-difference matrix cache never changes results", "statement": "The matrix returned for a (stencil width, offset) pair is the same whatever was requested earlier in the session.", "quantifier": "for every history of requests", "why_tests_cant": "Caching bugs need a particular order of requests with colliding keys.", "anchors": ["nrpy/finite_difference.py:setup_FD_matrix__return_inverse", "nrpy/finite_difference.py:FDMatrix.Matrix_dict"]}
{"id": "C17", "title": "Derivative symbols are parsed back to the gridfunction and operator they were built from", "statement": "For a derivative symbol built from a base gridfunction whose name contains neither U nor D, tensor indices and a derivative operator, the extracted (base gridfunction, operator) pair is the one it was built from; for every other base name the extraction raises; so distinct derivatives are never confused.", "quantifier": "for every base name, index list and derivative operator", "why_tests_cant": "String parsing over all names; bugs need names containing operator-like substrings.", "anchors": ["nrpy/finite_difference.py:extract_base_gfs_and_deriv_ops_lists__from_list_of_deriv_vars", "nrpy/finite_difference.py:extract_list_of_deriv_var_strings_from_sympyexpr_list"], "first_stated": "For a derivative symbol built from a base gridfunction, tensor indices and derivative operator, the extracted (base gridfunction, operator) pair is the one it was built from, so distinct derivatives are never confused."}
{"id": "C18", "title": "Each gridfunction point is read from memory exactly once, in memory order, with its own variable", "statement": "The generated reads cover every stencil point of every needed derivative and every plain gridfunction exactly once; different (gridfunction, offset) pairs use different C variable names when no gridfunction name continues another with an offset-like suffix; reads of one gridfunction with offsets in [-50,49] are ordered by increasing memory address.", "quantifier": "for every set of gridfunctions, operators and orders, every grid size", "why_tests_cant": "The sort key only encodes offsets in a limited window; the failure needs a very high order.", "anchors": ["nrpy/finite_difference.py:read_gfs_from_memory", "nrpy/finite_difference.py:fd_temp_variable_name"], "first_stated": "The generated reads cover every stencil point of every needed derivative and every plain gridfunction exactly once, different (gridfunction, offset) pairs use different C variable names, and reads of one gridfunction are ordered by increasing memory address."}
{"id": "C19", "title": "Tensor symmetry declarations hold for every component", "statement": "An indexed expression declared with a symmetry option made of one pair, one ascending triple, one quadruple or two disjoint pairs has equal (or opposite, for anti-symmetries, with zero diagonal) entries at every pair of exchanged indices, canonical and unrelated entries are untouched, and symmetrising twice is the same as once; nosym changes nothing.", "quantifier": "for every rank (2,3,4), dimension, starting tensor and entry type; the 56 options of that form", "why_tests_cant": "In-place loops over all dimensions; combined symmetries can undo one another.", "anchors": ["nrpy/indexedexp.py:symmetrize_rank2", "nrpy/indexedexp.py:symmetrize_rank3", "nrpy/indexedexp.py:symmetrize_rank4"], "first_stated": "An indexed expression declared with a symmetry option has equal (or opposite, for anti-symmetries, with zero diagonal) entries at every pair of exchanged indices, entries outside the symmetry are untouched, and symmetrising twice is the same as once."}
{"id": "C20", "title": "Matrix inverters return the two-sided inverse and the determinant, or refuse", "statement": "generic_matrix_inverter2x2/3x3/4x4 and symm_matrix_inverter2x2/3x3/4x4 return a matrix whose product with the input is the identity on both sides, together with the Leibniz determinant, and raise exactly when the determinant is zero.", "quantifier": "for every matrix over every field (symmetric ones for symm_*)", "why_tests_cant": "Polynomial identities in up to 16 unknowns; tests instantiate a few.", "anchors": ["nrpy/indexedexp.py:generic_matrix_inverter2x2", "nrpy/indexedexp.py:generic_matrix_inverter3x3", "nrpy/indexedexp.py:generic_matrix_inverter4x4", "nrpy/indexedexp.py:symm_matrix_inverter2x2", "nrpy/indexedexp.py:symm_matrix_inverter3x3", "nrpy/indexedexp.py:symm_matrix_inverter4x4"]}
{"id": "C21", "title": "Levi-Civita objects are totally antisymmetric and contract correctly", "statement": "LeviCivitaSymbol is the sign of the permutation, it is totally antisymmetric, and the upper and lower Levi-Civita tensors contract to the generalised Kronecker delta for every non-zero sqrt-determinant.", "quantifier": "for every index triple and every non-zero metric determinant value over any field", "why_tests_cant": "The contraction identities are quantified over field values.", "anchors": ["nrpy/indexedexp.py:LeviCivitaSymbol_dim3_rank3", "nrpy/indexedexp.py:LeviCivitaTensorUUU_dim3_rank3", "nrpy/indexedexp.py:LeviCivitaTensorDDD_dim3_rank3"]}
{"id": "C22", "title": "Parallel code generation gives the same registries whatever order workers finish", "statement": "Merging the registries produced by independently registered functions gives the same final name-to-entry mapping for every completion order, equal to running them one after another, when the functions register different names; duplicate function calls are rejected up front.", "quantifier": "for every list of registered calls and every completion order (permutation)", "why_tests_cant": "Schedules: tests observe only a few.", "anchors": ["nrpy/helpers/parallel_codegen.py:do_parallel_codegen", "nrpy/helpers/parallel_codegen.py:unpack_NRPy_environment_dict", "nrpy/helpers/parallel_codegen.py:deep_update", "nrpy/helpers/parallel_codegen.py:register_func_call"]}
{"id": "C23", "title": "The on-disk cache returns what was stored, even across crashes", "statement": "After any history of writes, including interrupted ones, read_cached(id) returns the object of the last write under id if that write completed, and raises for an id never written; cached_simplify(e) equals simplify(e) unless an earlier call on the same expression died or its result cannot be pickled; an interrupted write always leaves a visible, unreadable entry.", "quantifier": "for every history of writes and reads and every crash point inside a write", "why_tests_cant": "Crash points and histories cannot be enumerated by tests.", "anchors": ["nrpy/helpers/cached_functions.py:write_cached", "nrpy/helpers/cached_functions.py:read_cached", "nrpy/helpers/cached_functions.py:is_cached", "nrpy/helpers/cached_functions.py:cached_simplify"], "first_stated": "read_cached(id) returns the last object written under id; an entry is only visible once completely written, so a crash during write_cached never makes a later read fail or return something else; cached_simplify(e) equals simplify(e)."}
{"id": "C24", "title": "Generated files are only touched when their content changes", "statement": "When the body does not raise and no text contains a carriage return, ConditionalFileUpdater leaves the file holding the new text (up to surrounding white space), leaves it untouched when nothing changed, and repeating a generation is a no-op.", "quantifier": "for every old file state and every sequence of written chunks", "why_tests_cant": "Quantifies over contents and exception points.", "anchors": ["nrpy/helpers/conditional_file_updater.py:ConditionalFileUpdater"], "first_stated": "Writing through ConditionalFileUpdater leaves the file holding the new text (up to surrounding white space) and leaves the file untouched when nothing changed, so repeating a generation is a no-op; if the body raises, the previous file is preserved."}
{"id": "C25", "title": "List helpers keep order and lose nothing", "statement": "superfast_uniq and uniquify return each distinct element once in first-occurrence order; flatten concatenates one level; repeat(f,x,n) applies f n times for n >= 0; pipe composes; reduce is the left fold; product of two or more iterables, and of one iterable repeated at least twice, of elements that are not themselves lists, enumerates the Cartesian product in lexicographic order.", "quantifier": "for every finite input list, function and count", "why_tests_cant": "Algebraic laws over all lists; the deviations need one-element or nested inputs.", "anchors": ["nrpy/helpers/functional.py:pipe", "nrpy/helpers/functional.py:repeat", "nrpy/helpers/functional.py:chain", "nrpy/helpers/functional.py:flatten", "nrpy/helpers/functional.py:reduce", "nrpy/helpers/functional.py:uniquify", "nrpy/helpers/functional.py:product", "nrpy/helpers/generic.py:superfast_uniq"], "first_stated": "superfast_uniq and uniquify return each distinct element once in first-occurrence order; flatten concatenates one level; repeat(f,x,n) applies f n times; reduce is the left fold; product enumerates the Cartesian product in lexicographic order."}
{"id": "C26", "title": "Loop nests visit exactly the requested index set, tiled or not", "statement": "The C loop nest generated by loop() executes its body once for every index tuple lower_i <= i < upper_i stepping by the increment, outermost index slowest, every opened brace is closed, and tiling by tile sizes that are multiples of the increments visits the same tuples exactly once.", "quantifier": "for every number of dimensions, bounds, increments and tile sizes", "why_tests_cant": "Needs every bound/tile combination, including remainders and empty ranges.", "anchors": ["nrpy/helpers/loop.py:loop1D", "nrpy/helpers/loop.py:loop"]}
{"id": "C27", "title": "Expression trees reconstruct the expression they were built from", "statement": "Building an ExprTree from an expression and reconstructing it returns the same expression; preorder and postorder list every node exactly once, with parents before (after) children.", "quantifier": "for every expression tree", "why_tests_cant": "Structural induction over all expressions.", "anchors": ["nrpy/helpers/expr_tree.py:ExprTree"]}
{"id": "C28", "title": "SIMD rewriting preserves the value of the expression", "statement": "Replacing sums, products, quotients and powers by SIMD intrinsics (including all fused multiply-add patterns) gives an expression with the same value under every assignment of the symbols, if no exponent is 0 and the terms of each sum are distinct after the first step; every constant it mentions is declared in the returned table unless an exponent -1/2, -3/2 or -5/2 occurs.", "quantifier": "for every expression and every assignment in a field", "why_tests_cant": "A semantic-preservation claim for a rewriting system over all expressions.", "anchors": ["nrpy/helpers/simd.py:expr_convert_to_simd_intrins"], "first_stated": "Replacing sums, products, quotients and powers by SIMD intrinsics (including all fused multiply-add patterns) gives an expression with the same value under every assignment of the symbols, and every constant it mentions is declared in the returned table."}
{"id": "C29", "title": "CSE post-processing preserves values and leaves definitions before uses", "statement": "After cse_postprocess every output expression, evaluated by executing the remaining replacement definitions in order, has the value it had before, every temporary is defined once and before it is used, and the procedure terminates.", "quantifier": "for every replacement list and output list produced by a valid common-subexpression pass and every assignment of the free symbols", "why_tests_cant": "Semantic preservation over all programs.", "anchors": ["nrpy/helpers/cse_preprocess_postprocess.py:cse_postprocess"]}
{"id": "C30", "title": "CSE pre-processing preserves values", "statement": "Without the option that makes -1 a symbol, substituting the returned symbol-to-rational table back into the pre-processed expressions gives expressions equal in value to the inputs, and every introduced symbol is in the table; with the option the same holds when every power of -1 is an integer power and _Integer_1 is given the value 1.", "quantifier": "for every expression and assignment", "why_tests_cant": "Semantic preservation over all expressions, including signs, ones and powers of -1.", "anchors": ["nrpy/helpers/cse_preprocess_postprocess.py:cse_preprocess"], "first_stated": "Substituting the returned symbol-to-rational table back into the pre-processed expressions gives expressions equal in value to the inputs, and every introduced symbol is in the table."}
{"id": "C31", "title": "C-function registry never overwrites and always holds valid functions", "statement": "register_CFunction either adds exactly one new entry under the function's (coordinate-system qualified) name or raises and changes nothing; after any history every entry has non-empty name, description and body and no later call changed an earlier entry.", "quantifier": "for every sequence of register_CFunction calls", "why_tests_cant": "History invariant over a global dictionary, including rejected calls and name qualification collisions.", "anchors": ["nrpy/c_function.py:CFunction", "nrpy/c_function.py:register_CFunction", "nrpy/c_function.py:function_name_and_subdir_with_CoordSystem"]}
{"id": "C32", "title": "The generated time step is the Runge-Kutta step of the Butcher table", "statement": "For every explicit Butcher table that is not diagonal, or is diagonal with no zero sub-diagonal entry after the first and a non-zero last weight (three stages when the name contains RK3, one stage of weight 1 when the name is Euler, two or more otherwise), and for every right-hand side, one call of the generated MoL step with the storage scheme chosen for that table (Euler, diagonal RK3 with two arrays, diagonal with k_odd/k_even, general with k1..ks) turns y_n into y_n + dt*sum b_i k_i with k_i = f(t + c_i dt, y_n + dt*sum a_ij k_j), boundary processing applied at each stage; this covers every non-adaptive built-in table, and adaptive tables are refused. Each of the exceptions is a real failure.", "quantifier": "for every table of any number of stages, every right-hand side, state and dt", "why_tests_cant": "Storage-saving schemes reuse arrays; correctness must hold for all tables and right-hand sides.", "anchors": ["nrpy/infrastructures/BHaH/MoLtimestepping/MoL.py:register_CFunction_MoL_step_forward_in_time", "nrpy/infrastructures/BHaH/MoLtimestepping/MoL.py:is_diagonal_Butcher", "nrpy/infrastructures/BHaH/MoLtimestepping/MoL.py:generate_gridfunction_names"], "first_stated": "For every explicit Butcher table and right-hand side, one call of the generated MoL step with the storage scheme chosen for that table (Euler, diagonal RK3 with two arrays, diagonal with k_odd/k_even, general with k1..ks) turns y_n into y_n + dt*sum b_i k_i with k_i = f(y_n + dt*sum a_ij k_j)."}
{"id": "C33", "title": "Built-in Butcher tables are consistent and of the stated order", "statement": "Every table in the dictionary is explicit (lower triangular). Except for DP8 and its adaptive twin, whose coefficients are rational approximations, each has row sums equal to its c column, weights summing to one, and satisfies the Runge-Kutta order conditions up to its stated order (one less for the lower-order weights of adaptive tables), hence the generated code advances y'=lambda*y to that order and integrates polynomials of degree below it exactly. DP8 and its twin satisfy each of these order conditions up to a relative error of 1e-16.", "quantifier": "for every table in the dictionary; order consequences for every lambda, dt and polynomial", "why_tests_cant": "The algebraic consequences quantify over all linear problems and polynomials; tests compare a Taylor expansion of one ODE.", "anchors": ["nrpy/infrastructures/BHaH/MoLtimestepping/RK_Butcher_Table_Dictionary.py:generate_Butcher_tables"], "first_stated": "Every table in the dictionary is explicit (lower triangular), has row sums equal to its c column, weights summing to one, and satisfies the Runge-Kutta order conditions up to its stated order, hence advances y'=lambda*y and polynomial quadratures to that order."}
{"id": "C34", "title": "Adams-Bashforth weights integrate polynomials exactly", "statement": "The order-n Adams-Bashforth weights generated satisfy sum_j b_j p(-j) = integral_0^1 p for every polynomial p of degree below n.", "quantifier": "for every order n and every polynomial of degree below n", "why_tests_cant": "All orders.", "anchors": ["nrpy/infrastructures/BHaH/MoLtimestepping/RK_Butcher_Table_Dictionary.py:generate_Butcher_tables"]}
{"id": "C35", "title": "Domain decomposition assigns every grid point to one chare with consistent indices", "statement": "When the grid divides evenly, every global point is owned by exactly one chare; the global-to-local and local-to-global index maps are mutually inverse on owned points; interior global points get interior local indices.", "quantifier": "for every number of chares and points per chare in each direction and every ghost width", "why_tests_cant": "Index arithmetic over all sizes.", "anchors": ["nrpy/infrastructures/superB/chare_communication_maps.py:register_CFunction_charecommstruct_set_up", "nrpy/infrastructures/superB/superB/superB.h:MAP_LOCAL_TO_GLOBAL_IDX0"]}
{"id": "C36", "title": "Outer boundary filling touches every outer point once and never races", "statement": "The face and ghost-layer loops put every pure outer boundary point (a ghost point that is its own in-bounds image) into exactly one batch, once, and no other point; each batch fits its allocation; no batch reads a point it writes, and what it reads is interior, filled by an earlier batch, or an inner boundary point, always inside the grid; so every thread schedule gives the same result, in which each outer point holds the quadratic extrapolation of its three inward neighbours and nothing else has changed; data sampled from a polynomial of degree at most two in each coordinate is extended exactly. In every direction that has pure outer points there must be at least three interior points: with two, the two sides of a batch read each other and the result depends on the schedule.", "quantifier": "for every grid size, ghost width, in-bounds map, gridfunction data and thread schedule", "why_tests_cant": "Schedules and sizes; edges and corners are easy to miss.", "anchors": ["nrpy/infrastructures/BHaH/CurviBoundaryConditions/CurviBoundaryConditions.py:register_CFunction_bcstruct_set_up", "nrpy/infrastructures/BHaH/CurviBoundaryConditions/CurviBoundaryConditions.py:register_CFunction_apply_bcs_outerextrap_and_inner"], "first_stated": "The face/ghost-layer loops cover every ghost point exactly once; each parallel batch only reads points that are interior or filled by an earlier batch (so any thread schedule gives the same result); after the fill, data sampled from a polynomial of degree at most two in each coordinate is extended exactly."}
{"id": "C37", "title": "Inner boundary filling copies with parity, independent of order", "statement": "Applying inner boundary conditions sets each inner boundary point to parity times its source value, leaves every other point unchanged, gives the same result for every thread schedule, and applying it twice is the same as once, provided sources are not themselves inner boundary points.", "quantifier": "for every inner-point table of that kind, every data and every schedule", "why_tests_cant": "Schedules and aliasing.", "anchors": ["nrpy/infrastructures/BHaH/CurviBoundaryConditions/CurviBoundaryConditions.py:register_CFunction_apply_bcs_inner_only"]}
{"id": "C38", "title": "Restart from a checkpoint reproduces the run", "statement": "Reading back a complete checkpoint restores the common data (with the start time and start iteration set to the saved time and iteration), the parameters of every grid, every evolved value at every point, and the horizon data when horizon finding is on. Writing one changes nothing but the diagnostics buffer. A checkpoint is written exactly when a multiple of checkpoint_every lies strictly within half a step of the current time. After a crash during a write the file is the old checkpoint, the complete new one, or a strict prefix of the new one; reading a strict prefix is never reported as a failure: either the read is undefined or it succeeds with some evolved value uninitialised.", "quantifier": "for every number of grids and gridfunctions, every grid size, every data, every crash point", "why_tests_cant": "Crash points and sizes.", "anchors": ["nrpy/infrastructures/BHaH/checkpointing.py:register_CFunction_write_checkpoint", "nrpy/infrastructures/BHaH/checkpointing.py:register_CFunction_read_checkpoint"], "first_stated": "Reading back a checkpoint restores time, iteration, grid parameters and every evolved value at every grid; writing one does not change the simulation state; after a crash at any point during a write, a restart either finds the previous checkpoint or none, never a mixture."}
{"id": "C39", "title": "Time-integrator memory is allocated and freed exactly once", "statement": "For every Butcher table, the arrays allocated by the generated malloc functions are exactly those freed by the generated free functions, every array the time step uses is allocated, no array is both in the y_n and non-y_n sets, and, except for Euler, every array the diagnostics pointers alias is allocated.", "quantifier": "for every method name and Butcher table", "why_tests_cant": "A leak or dangling pointer shows only for particular tables (for instance Euler).", "anchors": ["nrpy/infrastructures/BHaH/MoLtimestepping/MoL.py:generate_gridfunction_names", "nrpy/infrastructures/BHaH/MoLtimestepping/MoL.py:register_CFunction_MoL_malloc", "nrpy/infrastructures/BHaH/MoLtimestepping/MoL.py:register_CFunction_MoL_free_memory"], "first_stated": "For every Butcher table, the arrays allocated by the generated malloc functions are exactly those freed by the generated free functions, every array the time step uses and every array the diagnostics pointers alias is allocated, and no array is both in the y_n and non-y_n sets."}
{"id": "C40", "title": "Struct declarations are registered once per module and stay semicolon-free", "statement": "After any history of register_griddata_commondata calls no module holds the same declaration twice, no declaration contains a semicolon, earlier declarations are kept in order, and a raising call changes no declaration.", "quantifier": "for every sequence of calls", "why_tests_cant": "History invariant.", "anchors": ["nrpy/infrastructures/BHaH/griddata_commondata.py:register_griddata_commondata"]}
{"id": "C41", "title": "Upwinding selects the derivative by the sign of the control vector", "statement": "For every list of expressions over gridfunctions, parameters and first, second, Kreiss-Oliger and upwinded derivatives of registered gridfunctions, kernel generation succeeds; and whenever every control-vector component is built from gridfunctions that also occur in the expressions or from given values, and no two declared names coincide, the generated kernel runs without referring to an undeclared variable and stores in each output the value of its expression, where a derivative symbol means its stencil applied to memory times inverse grid spacings and an upwinded symbol means the dupD stencil where the control component is positive and the ddnD stencil where it is not - with or without finite-difference functions and SIMD.", "quantifier": "for every expression list, registry, control vector, order 2k, data and option setting", "why_tests_cant": "Selection is a semantic claim over all values; the missing read needs a control vector that is not otherwise used.", "anchors": ["nrpy/c_codegen.py:gridfunction_management_and_FD_codegen"], "first_stated": "The upwinded derivative emitted for a direction equals the dupD derivative when the control vector component is positive and the ddnD derivative when it is not, and every gridfunction the generated kernel needs - including the control vector - is read from memory before use."}
{"id": "C42", "title": "C power printing preserves the value", "statement": "The C text chosen for base**exponent by the custom Pow printers (repeated multiplication, reciprocal, sqrt, cbrt, fallback pow) is a primary C expression using only the functions and literals of its precision and has the value base**exponent, for every base value and exponent for which the power is a real number; for a negative base and exponent 1/3 the text denotes the real root, which is proved to differ from the principal value.", "quantifier": "for every precision, base text, base value, exponent text and exponent (rational or symbolic)", "why_tests_cant": "All values and exponents.", "anchors": ["nrpy/helpers/custom_c_codegen_functions.py:custom_functions_for_SymPy_ccode"], "first_stated": "The C text chosen for base**exponent by the custom Pow printers (repeated multiplication, reciprocal, sqrt, cbrt, fallback pow) has the value base**exponent."}
{"id": "C43", "title": "Two-dimensional output planes sample interior points nearest the plane", "statement": "The index arrays generated for xy and yz plane output (and for y and z axis output) are filled exactly, with interior indices only, whenever the second and third directions have at least two cells; directions not fixed by the plane are covered completely; and the sampled index is a cell centre nearest the plane: for the middle of a range always, for the azimuths -pi/2 and pi/2 when the number of azimuthal cells is even (less than one cell away in any case, exact for 4k+2 cells). It fails, with proof, for one azimuthal cell (ghost index), for odd azimuthal sizes (not nearest), for the xy plane of the wedge systems (the plane is outside the grid and the points are not nearest it), and on axes without points (stores into arrays of length 0).", "quantifier": "for every number of grid points and ghost width, every coordinate system name and plane or axis", "why_tests_cant": "Integer rounding over all sizes, including odd and non-multiple-of-4 sizes.", "anchors": ["nrpy/infrastructures/BHaH/simple_loop.py:max_numpts__i012_pts__numpts_2D", "nrpy/infrastructures/BHaH/simple_loop.py:simple_loop_2D"], "first_stated": "The index lists generated for xy and yz plane output contain only valid interior indices, and in each coordinate system they are the cell centres closest to the plane."}
{"id": "C44", "title": "Derivatives across symmetry axes are the ones zeroed", "statement": "For base names that do not contain _d, zero_out_derivatives_across_symmetry_axes replaces exactly those entries whose symbol is a derivative taken along a symmetry axis by zero and keeps all others; names without a derivative operator are kept.", "quantifier": "for every indexed expression of rank up to four, dimension up to 10 and every symmetry-axis setting", "why_tests_cant": "String matching over all names and ranks.", "anchors": ["nrpy/indexedexp.py:zero_out_derivatives_across_symmetry_axes"], "first_stated": "zero_out_derivatives_across_symmetry_axes replaces exactly those entries whose symbol is a derivative taken along a symmetry axis by zero and keeps all others."}
{"id": "C45", "title": "Finite differences are generated for exactly the derivative symbols of the expressions, once each", "statement": "The list of derivative symbols extracted from the expressions contains exactly the free symbols that are neither gridfunctions nor code parameters and carry a derivative operator; with upwinding it contains in addition exactly the downwind partner of each upwind derivative; without upwinding each occurs once.", "quantifier": "for every registry, code-parameter set, list of free symbols and symbol order", "why_tests_cant": "Needs all combinations of symbols; the duplicate only appears when upwind and downwind derivatives of the same function are both written.", "anchors": ["nrpy/finite_difference.py:extract_list_of_deriv_var_strings_from_sympyexpr_list", "nrpy/finite_difference.py:symbol_is_gridfunction_Cparameter_or_other"], "first_stated": "The list of derivative symbols extracted from the expressions contains exactly the free symbols that are neither gridfunctions nor code parameters and carry a derivative operator, each once; with upwinding it also contains, once, the downwind partner of each upwind derivative."}
{"id": "C46", "title": "Include prefixes lead back to the project root", "statement": "For a relative subdirectory, following the generated chain of '..' from the subdirectory ends in the project root exactly when the subdirectory itself does not leave the root; the depth is the number of folders of the normalised path.", "quantifier": "for every relative subdirectory string, with any mix of './', '//', trailing slashes and 'a/..'", "why_tests_cant": "Paths are arbitrary strings; tests list a handful of spellings.", "anchors": ["nrpy/c_function.py:CFunction.subdirectory_depth", "nrpy/c_function.py:CFunction.generate_full_function"]}
{"id": "C47", "title": "A function's description never escapes its comment", "statement": "The comment built from a description contains no comment terminator before the one the generator writes exactly when the description itself contains none, and that comment stands directly in front of the function header in every registered function.", "quantifier": "for every description text and every accepted set of arguments", "why_tests_cant": "Any line structure and white space around stars and slashes must be considered.", "anchors": ["nrpy/helpers/generic.py:prefix_with_star", "nrpy/c_function.py:CFunction.generate_full_function"]}
{"id": "C48", "title": "The declared prototype matches the definition", "statement": "The prototype stored for the header file is the definition's header followed by one semicolon, for all function types, names, parameters and decorators free of semicolons.", "quantifier": "for every accepted set of arguments without semicolons in the header parts", "why_tests_cant": "Quantifies over all strings; the semicolon removal is textual.", "anchors": ["nrpy/c_function.py:CFunction.generate_full_function", "nrpy/c_function.py:CFunction"]}
{"id": "C49", "title": "Cached formatting is transparent", "statement": "For every sequence of clang_format calls whose option strings are such that none is a proper suffix of another, each call returns exactly what the formatter returns for its own code and options, whatever was formatted before.", "quantifier": "for every formatter, call sequence and suffix-free set of option strings", "why_tests_cant": "The cache identifier is a concatenation; a collision needs a particular pair of calls in one cache lifetime.", "anchors": ["nrpy/helpers/generic.py:clang_format"]}
{"id": "C50", "title": "Trusted-string validation is a faithful regression check", "statement": "Once a text without carriage returns has been validated under a name for the first time, a later validation under that name succeeds exactly when the text is the same, whatever else was validated in between; no validation changes an existing trusted file.", "quantifier": "for every sequence of validations, every text and name", "why_tests_cant": "History property over the trusted-file store.", "anchors": ["nrpy/helpers/generic.py:validate_strings"]}
{"id": "C51", "title": "Chare coordinates are the global coordinates of the points they map to", "statement": "The coordinate array each chare fills equals the global array at the mapped indices and is the cell-centred grid starting at the chare's xxmin; chares' xxmin tile the range from xxmin to xxmax; dxx and invdxx are inverse; interior points are centres of equal cells tiling the range. (The stored chare xxmax is not the end of the chare's grid: it lies a whole grid width past its xxmin.)", "quantifier": "for every grid range, number of chares, points per chare, ghost width and index (exact arithmetic)", "why_tests_cant": "All sizes; an off-by-one in one chare only shows up at particular decompositions.", "anchors": ["nrpy/infrastructures/superB/numerical_grids.py:register_CFunction_numerical_grid_params_Nxx_dxx_xx_chare", "nrpy/infrastructures/BHaH/numerical_grids_and_timestep.py:register_CFunction_numerical_grid_params_Nxx_dxx_xx"]}
{"id": "C52", "title": "Ghost exchange gives every chare the global field on its whole local grid", "statement": "If every chare holds a global field's values on the points it owns, then after the exchanges along x, y and z every chare holds them on every local point including edge and corner ghosts, for every exchanged gridfunction; other gridfunctions are unchanged; no index leaves the buffers or arrays.", "quantifier": "for every decomposition accepted by the size checks, every ghost width, gridfunction list, field, and previous buffer contents (in-order message delivery)", "why_tests_cant": "Corners depend on the order of the three exchanges; all sizes and decompositions.", "anchors": ["nrpy/infrastructures/superB/timestepping_chare.py:output_timestepping_cpp", "nrpy/infrastructures/superB/timestepping_chare.py:generate_process_ghost_code", "nrpy/infrastructures/superB/superB/superB.h:IDXFACES0"]}
{"id": "C53", "title": "Struct layout and header text do not depend on registration order", "statement": "The text of params_struct and commondata_struct is the same for every order in which parameters and extra declarations were registered. Which fields appear and in which order depends only on names, types and the commondata flag, not on modules, descriptions or defaults, so a checkpoint keeps its layout. Each struct declares exactly the non-#define parameters meant for it, each once. BHaH_defines.h depends only on what each module registered, and contains every module's text.", "quantifier": "for every dictionary of parameters, every set of extra declarations and every interleaving of registrations", "why_tests_cant": "Quantifies over orders of registration across modules and over comment texts that could influence a textual sort.", "anchors": ["nrpy/infrastructures/BHaH/BHaH_defines_h.py:output_BHaH_defines_h", "nrpy/infrastructures/BHaH/BHaH_defines_h.py:register_BHaH_defines"]}
{"id": "C54", "title": "Defaults reach the variables the kernels read", "statement": "Running the generated set_to_default functions sets every parameter that has a default, in its own struct, to str(default).lower() (arrays: every element; char arrays: the default cut to size-1 characters) and changes no other field. set_CodeParameters.h declares exactly the parameters meant for it, each once, from its own struct, so after both a scalar variable holds its default. The generator raises exactly when a scalar has a list default or a non-REAL scalar a string default. In the SIMD header no name is declared twice if no parameter starts with NOSIMD.", "quantifier": "for every parameter dictionary, every emission order", "why_tests_cant": "Over all registries; name clashes and orders are not enumerable.", "anchors": ["nrpy/infrastructures/BHaH/CodeParameters.py:register_CFunctions_params_commondata_struct_set_to_default", "nrpy/infrastructures/BHaH/CodeParameters.py:write_CodeParameters_h_files"]}
{"id": "C55", "title": "SIMD macros mean what the conversion to SIMD intends", "statement": "For every set of compiler flags, every macro of simd_intrinsics.h (and of cuda_intrinsics.h, with and without nvcc) that a converted expression can call computes, on every lane and in exact arithmetic, the function it is named after (NegFusedMulSubSIMD outside the SSE2+FMA branch), so that lane i of a compiled right-hand side is the value of the original expression on lane i of its symbols; loads and stores touch exactly simd_width consecutive cells; HorizAddSIMD is the sum of the lanes; AbsSIMD and UPWIND_ALG are right on every 64-bit pattern including zeros, infinities and NaNs.", "quantifier": "forall compiler flags, macros, argument values, expressions, lanes, 64-bit words", "why_tests_cant": "The tests compile for one instruction set only; a macro of another branch is never executed by them, and special bit patterns do not occur.", "anchors": ["nrpy/helpers/simd_intrinsics.h:11-239", "nrpy/helpers/cuda_intrinsics.h:1-83", "nrpy/helpers/simd.py:255-275", "nrpy/c_codegen.py:1082-1088"]}
{"id": "C56", "title": "Vectorised and threaded grid loops compute every point", "statement": "simple_loop generates three nested loops over the requested region with the coordinate reads inside the loop over their index and nothing between collapsed loops; run with vectors of width w, serially or with any schedule of the OpenMP tasks, the loop leaves in every interior cell of every gridfunction the value of its own point and touches nothing else but the spill cells after each row, provided the spill stays within the ghost zones as stated; memory accesses are in bounds exactly under the stated condition, and a loop over all points is right when the row length is a multiple of w.", "quantifier": "for every region, grid size, number of ghost zones, number of gridfunctions, vector width, kernel values and interleaving of the tasks", "why_tests_cant": "Spill-over only shows for particular remainders of the grid size, and races only for particular schedules.", "anchors": ["nrpy/infrastructures/BHaH/simple_loop.py:simple_loop", "nrpy/infrastructures/ETLegacy/simple_loop.py:simple_loop", "nrpy/infrastructures/CarpetX/simple_loop.py:simple_loop", "nrpy/infrastructures/BHaH/MoLtimestepping/MoL.py:single_RK_substep_input_symbolic"]}
{"id": "C57", "title": "Precomputed reference-metric arrays hold, at every grid point, the value the generated kernels expect", "statement": "For any list of reference-metric entries with distinct array names, ReferenceMetricPrecompute accepts it exactly when each array depends on one coordinate or on xx0 and xx1 (else RuntimeError); every array is then declared, allocated and freed exactly once and read exactly once over the loop directions with indices in scope. If no array depends on all three coordinates, the generated allocation and definition code stores only inside the arrays and sets every cell, and every scalar, vector (lane by lane) or broadcast read at any grid point, ghost zones included, yields the expression's value at that point; freeing leaves nothing. An array of all three coordinates is accepted although its definition loop does not declare xx2. Registration adds three functions per coordinate system and one struct whose lines are the sorted, distinct declarations of all systems.", "quantifier": "All entry lists (names, expressions with arbitrary dependence on xx0,xx1,xx2, sort keys), all evaluation functions that look only at free symbols, all positive grid sizes, all grid points and lanes, all lists of coordinate systems and prior registries.", "why_tests_cant": "Tests run a few built-in coordinate systems whose arrays depend on one coordinate each; they do not explore mixed dependencies, name clashes, or index arithmetic over all sizes.", "anchors": ["nrpy/infrastructures/BHaH/rfm_precompute.py:21-153", "nrpy/infrastructures/BHaH/rfm_precompute.py:156-201"]}
{"id": "C58", "title": "Every coordinate system is orthogonal with the stated scale factors, and the hatted quantities are those of flat space", "statement": "For every coordinate-system name that ReferenceMetric accepts (exactly the eleven fixed names, names ending in SinhSpherical, and the v2n families with an even power), at every point strictly inside the grid and for all positive amplitudes and widths: the scale factors are positive and are the lengths of the derivatives of xx_to_Cart, whose directions are the given orthonormal unit vectors; the Jacobian matrices to Cartesian and spherical coordinates are the true derivatives and their inverses are inverses on both sides; ghatDD is the flat metric, ghatUU its inverse, detgammahat its determinant; every quantity named as a derivative is that derivative; GammahatUDD is the connection of the flat metric. Cart_to_xx inverts xx_to_Cart except in SinhSymTP and the v2n families; xxSph are the spherical coordinates except in the wedges; the ends of the ranges are the stated radii. Other names raise ValueError unless they contain Cartesian or Wedge.", "quantifier": "for all names, parameters, grid points, and indices; derivatives are limits over the reals", "why_tests_cant": "A test evaluates a few points of a few systems in floating point; the identities are needed at every point for every parameter choice and every power n.", "anchors": ["nrpy/reference_metric.py:72-295", "nrpy/reference_metric.py:296-376", "nrpy/reference_metric.py:631-684", "nrpy/reference_metric.py:686-797", "nrpy/reference_metric.py:799-930", "nrpy/reference_metric.py:932-1094", "nrpy/reference_metric.py:1096-1287", "nrpy/reference_metric.py:1289-1440"]}
{"id": "C59", "title": "Precomputed reference metric equals the direct one", "statement": "For every accepted coordinate system and any order of the free symbols, building the reference metric with enable_rfm_precompute=True succeeds; every free symbol is registered; the symbols left in each hatted quantity are coordinate parameters and symbols of precomputed arrays; the value assigned to each symbol depends only on the coordinate in its name and is the true derivative its name says; and where the arrays hold these values every hatted quantity (metric, inverse, determinant, rescalings, Christoffel symbols and their derivatives) equals that of the direct form. The arrays are accepted by the array generator, one coordinate each. A lookup of a name in the dictionary of reference metrics gives the direct form, and with _rfm_precompute appended the precomputed form, after any earlier lookups.", "quantifier": "all coordinate-system names, parameter values and points inside the grid; all orders of the free symbols; all sequences of earlier lookups", "why_tests_cant": "Tests compare a checksum of one system's expressions at one random point; agreement at every point, for every system and every symbol order needs the chain rule for the symbols.", "anchors": ["nrpy/reference_metric.py:378-629", "nrpy/reference_metric.py:117-183", "nrpy/reference_metric.py:1475-1499", "nrpy/infrastructures/BHaH/rfm_precompute.py:30-153"]}
{"id": "C60", "title": "The 4-metric conversions: line element, inverse, determinant, and the way back to lapse and shift", "statement": "For every symmetric 3-metric, shift and lapse over any field, ADM_to_g4DD gives the coefficients of the 3+1 line element; ADM_to_g4UU accepts exactly when det gamma is nonzero (NonInvertibleMatrixError otherwise) and is then, for nonzero lapse, the two-sided inverse of the 4-metric, also with a supplied inverse 3-metric; det g4 = -alpha^2 det gamma. g4DD_to_ADM returns the spatial part of the metric, and a shift that solves gamma_ij beta^j = (g00, g01, g02): line 158 reads g4DD[0][i] where the shift is g4DD[0][i+1]. The shift is right exactly when g0i = g0(i+1) for i = 0, 1, 2, and never for zero shift and nonzero lapse.", "quantifier": "all symmetric 3-metrics, shifts, lapses; any field", "why_tests_cant": "the module's own check compares with stored expressions that were made by the same code; no test takes a metric to lapse and shift and back", "anchors": ["nrpy/equations/general_relativity/g4munu_conversions.py:20-55", "nrpy/equations/general_relativity/g4munu_conversions.py:58-112", "nrpy/equations/general_relativity/g4munu_conversions.py:139-185"]}
{"id": "C61", "title": "ADM to BSSN and back", "statement": "For each conformal-factor choice (phi, chi, W), every symmetric 3-metric of positive determinant, every K_ij, shift and B^i, and every reference metric of positive determinant: ADM_to_BSSN gives a conformal metric whose determinant is that of the reference metric, with gamma_ij = e^(4 phi) gammabar_ij for the e^(4 phi) that BSSN_to_ADM computes from cf, a trace-free Abar_ij, the trace of K_ij, and K_ij = e^(4 phi) Abar_ij + gamma_ij K/3. Where the rescaling factors are nonzero, BSSN_to_ADM after ADM_to_BSSN is the identity on gamma_ij, K_ij, beta^i, B^i, and ADM_to_BSSN after BSSN_to_ADM is the identity on h_ij, a_ij, vet^i, bet^i, trK, cf whenever det gammabar = det gammahat, Abar is trace-free and (chi, W) cf > 0. Unknown conformal-factor names raise ValueError, singular metrics NonInvertibleMatrixError, detgbarOverdetghat_equals_one=False ValueError.", "quantifier": "all metrics, extrinsic curvatures, shifts, reference metrics, and the three conformal-factor names", "why_tests_cant": "the checks evaluate single expressions at one random point and compare with stored numbers; none composes the two conversions", "anchors": ["nrpy/equations/general_relativity/ADM_to_BSSN.py:78-144", "nrpy/equations/general_relativity/BSSN_to_ADM.py:37-171", "nrpy/equations/general_relativity/BSSN_quantities.py:92-182"]}
{"id": "C62", "title": "The hand-written derivatives and connections of the BSSN equations are what their names say", "statement": "In every coordinate system of reference_metric.py and at every point inside its grid: gammabarDD_dD, gammabarDD_dDD, AbarDD_dD, betaU_dD, betaU_dDD, phi_dD and phi_dDD of BSSN_quantities.py, and gammaDDdD, gammaDDdDD and KDDdD of BSSN_to_ADM.py, are the partial derivatives of the quantities they are named after; GammabarUDD and GammaUDD are the (unique) symmetric connections for which gammabarDD and gammaDD are covariantly constant; the hatted derivatives are first and second covariant derivatives with the connection of the reference metric; and as long as det gammabar = det gammahat, Dbarbetacontraction is the divergence of the shift with the connection of gammabar, Dbarbetacontraction_dBarD its gradient, and Terms 2a+2b+2c of the Lambdabar equation the second covariant derivative of the shift.", "quantifier": "all coordinate systems, all points strictly inside the grid, all differentiable fields with the declared symmetries, all three conformal factors", "why_tests_cant": "The trusted-value tests evaluate the expressions at one set of random numbers and compare with stored numbers of an earlier run; they cannot tell a wrong formula that was always wrong from a right one, since the symbols for the derivatives are independent of the symbols for the fields.", "anchors": ["nrpy/equations/general_relativity/BSSN_quantities.py:128-557", "nrpy/equations/general_relativity/BSSN_to_ADM.py:64-171", "nrpy/equations/general_relativity/BSSN_RHSs.py:99-312"]}
{"id": "C63", "title": "RbarDD is the Ricci tensor of the conformal metric", "statement": "In every coordinate system of reference_metric.py, at every point inside its grid where gammabarDD is invertible, RbarDD of BSSN_quantities.py equals the Ricci tensor d_k G^k_ij - d_j G^k_ik + G^k_nk G^n_ij - G^k_nj G^n_ik of the connection of gammabarDD, plus gammabar_k(i Dhat_j) C^k, where C^i is the violation of the constraint Lambdabar^i = gammabar^jk (Gammabar^i_jk - Gammahat^i_jk). In particular it is exactly the Ricci tensor when the constraint holds around the point. RbarDD is symmetric whether the constraint holds or not.", "quantifier": "all coordinate systems, all points strictly inside the grid, all twice differentiable fields with the declared symmetries", "why_tests_cant": "RbarDD is a sum of several hundred products in independent symbols; the trusted-value test compares one numerical value with the value an earlier run produced and no test relates the expression to the connection, let alone for every coordinate system and field.", "anchors": ["nrpy/equations/general_relativity/BSSN_quantities.py:262-452"]}
{"id": "C64", "title": "The BSSN right-hand sides keep the algebraic constraints and evolve the metric as ADM does", "statement": "In every coordinate system of reference_metric.py, at every point inside its grid and for every choice of the conformal factor: if variables change at the rates h_rhsDD, a_rhsDD, cf_rhs, trK_rhs of BSSN_RHSs.py, where det gammabar = det gammahat around the point and the upwinded derivatives are derivatives, then (a) det gammabar has time derivative 0; (b) if Abar is trace-free around the point, the trace of Abar has time derivative 0 (also with trace-free source terms and any RbarDD grid function); (c) the right-hand sides of hDD and aDD are symmetric; (d) the physical metric computed by BSSN_to_ADM satisfies d_t gamma_ij = -2 alpha K_ij + (L_beta gamma)_ij, with K_ij the one BSSN_to_ADM computes.", "quantifier": "all coordinate systems, all points strictly inside the grid, all differentiable fields with the declared symmetries, all differentiable time dependences with these rates, all conformal factors phi/W/chi", "why_tests_cant": "The right-hand sides are trusted-value tested at one random assignment of independent symbols, for which neither constraint holds; no test relates two right-hand sides to each other or to the ADM variables.", "anchors": ["nrpy/equations/general_relativity/BSSN_RHSs.py:83-199", "nrpy/equations/general_relativity/BSSN_to_ADM.py:43-171"]}
{"id": "C65", "title": "BSSN evolution and constraints are those of ADM", "statement": "In every coordinate system of reference_metric.py, at every point inside its grid and for every choice of the conformal factor, for fields with trace-free Abar and Lambdabar^i = gammabar^jk (Gammabar^i_jk - Gammahat^i_jk) around the point, written in terms of the ADM variables of BSSN_to_ADM.py, their derivatives and the Ricci tensor R_ij of the physical connection: (a) trK is the trace of K_ij; (b) H of BSSN_constraints.py is R + K^2 - K_ij K^ij; (c) MU is D_j (K^ij - gamma^ij K), and mU is MU divided by ReU; (d) Msquared is e^{-4 phi} times gamma_ij M^i M^j (so not M^i M_i as the comment says); (e) if the variables change at the rates of BSSN_RHSs.py then d_t K_ij = - D_i D_j alpha + alpha (R_ij + K K_ij - 2 K_ik K^k_j) + (L_beta K)_ij - 1/3 alpha gamma_ij H.", "quantifier": "all coordinate systems, all points strictly inside the grid, all twice differentiable fields satisfying the constraints named, all differentiable time dependences with these rates, vacuum, RbarDD computed", "why_tests_cant": "The expressions are only compared with values an earlier run produced; the identities mix four files and second derivatives of fields, and hold only on fields satisfying the constraints, which random symbol values do not.", "anchors": ["nrpy/equations/general_relativity/BSSN_constraints.py:80-184", "nrpy/equations/general_relativity/BSSN_RHSs.py:83-220", "nrpy/equations/general_relativity/BSSN_to_ADM.py:43-171"]}
{"id": "C66", "title": "Lambdabar evolves with the connection it stands for", "statement": "In every coordinate system of reference_metric.py, at every point inside its grid and for every choice of the conformal factor: let the fields around the point satisfy det gammabar = det gammahat, trace of Abar = 0 and Lambdabar^i = gammabar^jk (Gammabar^i_jk - Gammahat^i_jk), and let the variables, and the first derivatives of h_ij, change in time at the rates of BSSN_RHSs.py and their spatial derivatives. Then (a) the contracted difference of the connections changes at the rate Lambdabar_rhsU - 2 alpha e^{4 phi} MU, with MU the vacuum momentum constraint of BSSN_constraints.py; (b) so the difference between Lambdabar^i = lambda^i ReU^i and that contraction changes at the rate 2 alpha e^{4 phi} MU^i plus the source term added for matter: Lambdabar_rhsU has every term right, with the second covariant derivative of the shift, the gradient of its divergence and the Lie derivative, and the constraint is preserved in vacuum when the momentum constraint holds.", "quantifier": "all coordinate systems, all points strictly inside the grid, all twice differentiable fields satisfying the constraints named, all differentiable time dependences with these rates, with or without RbarDD grid functions", "why_tests_cant": "The expressions are only compared with values an earlier run produced; the identity needs second derivatives of the metric and the shift, the flatness of the reference metric and the momentum constraint, which random symbol values do not satisfy.", "anchors": ["nrpy/equations/general_relativity/BSSN_RHSs.py:222-322", "nrpy/equations/general_relativity/BSSN_quantities.py:353-396", "nrpy/equations/general_relativity/BSSN_constraints.py:96-156"]}
{"id": "C67", "title": "Stress-energy source terms are those of the Einstein equations", "statement": "For every stress-energy tensor with energy density E, momentum density J^i and stress P^ij as measured by the normal observer of a lapse and shift, T4UU_and_ADM_to_SDD_SD_S_rho returns rho = E, S_i = J_i, S_ij = P_ij and S = P^k_k, and conversely every symmetric T^{mu nu} is recovered from what it returns. With enable_T4munu the BSSN right-hand sides then evolve the extrinsic curvature with the ADM source - 8 pi alpha (P_ij - gamma_ij (P - E) / 2) (up to the Hamiltonian constraint, which is R + K^2 - K_ij K^ij - 16 pi E), BSSN_constraints adds - 16 pi E and - 8 pi J^i, Lambdabar leaves the contracted connection at the rate 2 alpha e^{4 phi} times the momentum constraint with its matter term, and the source keeps Abar symmetric and trace-free.", "quantifier": "all lapses (non-zero), shifts, metrics, stress-energy tensors, coordinate systems, conformal-factor choices and fields", "why_tests_cant": "The trusted-value tests evaluate the expressions at fixed random numbers and compare with numbers produced by the same code.", "anchors": ["nrpy/equations/general_relativity/T4munu.py:19-214", "nrpy/equations/general_relativity/BSSN_RHSs.py:324-344", "nrpy/equations/general_relativity/BSSN_constraints.py:158-173"]}
{"id": "C68", "title": "The gauge conditions are those they are named after, and what a call leaves behind", "statement": "For every coordinate system, every point and all fields: with the right-hand sides of BSSN_gauge_RHSs (a) under the second-order Gamma-driving options the shift changes at the rate beta^j D_j beta^i + B^i and B^i - 3/4 Lambdabar^i + eta beta^i is carried along beta without change, where D is the partial derivative, the covariant derivative of gammabar or that of the reference metric as the option says; (b) under the first-order options the shift changes at beta^j D_j beta^i + 3/4 Lambdabar^i - eta beta^i and B does not change; (c) NonAdvecting is (a) without the derivative, Frozen changes nothing; (d) the lapse follows 1+log, its alternative, stays frozen, or follows the volume element of the physical metric relative to the reference metric (HarmonicSlicing, W or phi); (e) exactly the unknown options and HarmonicSlicing with chi are refused with ValueError; (f) the results do not depend on earlier calls unless one of them froze the shift in the same coordinate system, in which case B is lost from the second-order conditions.", "quantifier": "all coordinate systems, points, fields, options and sequences of calls", "why_tests_cant": "The module's own test calls the Frozen option first, which overwrites the cached BU with 0, so the trusted values of the second-order options are those without B (vet_rhsU = 0.0 for NonAdvectingGammaDriving); a comparison with stored numbers at one point cannot show what equation they belong to.", "anchors": ["nrpy/equations/general_relativity/BSSN_gauge_RHSs.py:32-329", "nrpy/equations/general_relativity/BSSN_quantities.py:106-113"]}
{"id": "C69", "title": "The wave-equation right-hand sides are the Laplacian and the exact solutions solve them", "statement": "vv_rhs of WaveEquationCurvilinear_RHSs is wavespeed^2 times the sum of the second Cartesian derivatives of the evolved function, in every coordinate system and for every twice differentiable function. The plane wave and the spherical Gaussian satisfy du/dt = uu_rhs and dv/dt = vv_rhs, with the Cartesian right-hand sides and, evaluated at the Cartesian position, with the curvilinear ones in every coordinate system. uu_exactsoln_r0 and vv_exactsoln_r0 at the origin are the limits of the spherical solution there. Both solutions stay positive, as the comment about the added 2 says. Any other WaveType is refused with ValueError.", "quantifier": "all coordinate systems accepted by reference_metric.py, all points strictly inside their grids, all times, wave speeds, nonzero wave vectors, nonzero widths, all twice differentiable functions", "why_tests_cant": "the tests compare the expressions with trusted values at one random point; that they form a solution of a differential equation is a statement about their derivatives at every point", "anchors": ["nrpy/equations/wave_equation/WaveEquation_Solutions_InitialData.py:43-185", "nrpy/equations/wave_equation/WaveEquation_RHSs.py:42-69", "nrpy/equations/wave_equation/WaveEquationCurvilinear_RHSs.py:47-110"]}
{"id": "C70", "title": "NRPyElliptic relaxes to the Hamiltonian constraint, with the Bowen-York curvature only for punctures without momentum", "statement": "Off the punctures: ADD_conf_cartesian computes the Bowen-York extrinsic curvature of the two punctures plus 2/3 (div V) (2 delta_ij - 1), where div V = 3/2 sum_n (x_n . P_n)/r_n^3; its trace is 2 div V. For punctures without momentum it is the Bowen-York curvature, tracefree and divergence-free. ADD_times_AUU is the Bowen-York square plus 4 (div V)^2 - 8/3 (div V) (A_xy + A_xz + A_yz). psi_background is 1 + m_0/(2 r_0) + m_1/(2 r_1) and harmonic. In every coordinate system, for every twice differentiable conformal factor Psi = psi_background + u, the residual is Laplacian(Psi) + 1/8 A_ij A^ij Psi^-7 with the computed curvature, vv_rhs is speed^2 times it, and for nonzero speed the fixed points are exactly the solutions of that equation with v = eta u.", "quantifier": "all puncture parameters, all points off the punctures strictly inside the grid, all coordinate systems, all twice differentiable functions, all eta and speeds", "why_tests_cant": "the tests compare the expressions with trusted values at one random point, which the inverted Kronecker delta passes because the trusted values were made with it; that a tensor is tracefree and divergence-free or an equation is the Hamiltonian constraint are statements about derivatives at every point", "anchors": ["nrpy/equations/nrpyelliptic/ConformallyFlat_SourceTerms.py:28-310", "nrpy/equations/nrpyelliptic/ConformallyFlat_RHSs.py:29-136", "nrpy/equations/nrpyelliptic/CommonParams.py:26-54"]}
{"id": "C71", "title": "LorentzBoost is the boost into the rest frame of a moving observer, for every nonzero speed below that of light", "statement": "For a velocity v the two matrices of LorentzBoost exist exactly when 0 < |v|^2 < 1. Then the matrix is symmetric, preserves the Minkowski metric and does not reverse time; boost_vectorU followed by inverse_boost_vectorU is the identity, in both orders; the 4-velocity of an observer with velocity v is boosted to (1,0,0,0); along x it is the textbook boost; and the boosted covectors and tensors with two, three or four lower indices have the same contractions with boosted vectors as before.", "quantifier": "all velocities, all vectors, all tensors of rank up to four", "why_tests_cant": "the module's test compares with trusted values at random points and one velocity of its round trip uses boost_vectorU for a covector; invariance of contractions is a statement about every tensor, and the zero velocity is never tried", "anchors": ["nrpy/equations/general_relativity/LorentzBoost.py:17-235"]}
{"id": "C72", "title": "rotate turns vectors and matrices about the axis by the angle, right-handed", "statement": "For a nonzero axis, not necessarily of unit length, rotate maps a 3-vector to R v and a 3x3 matrix to R M R^T, where R = cos t 1 + sin t [n]x + (1 - cos t) n n^T; R is orthogonal with determinant 1, fixes the axis and turns vectors at right angles to it by t. Products of vectors, bilinear forms and traces are preserved, rotations about one axis compose by adding angles. It raises exactly when the axis is not of length 3 or the tensor is not a 3-vector or a 3x3 matrix.", "quantifier": "all axes except zero, all angles, all vectors and matrices, all shapes of arguments", "why_tests_cant": "the doctests rotate particular vectors about coordinate axes by special angles; a wrong order of the quaternion factors shows only for general axes", "anchors": ["nrpy/equations/quaternion_rotations/tensor_rotation.py:15-141"]}
{"id": "C73", "title": "min_noif and max_noif are minimum and maximum; the coordinate bounds are step functions only up to TINYDOUBLE", "statement": "min_noif and max_noif equal the minimum and the maximum of their arguments in every combination of the number zero and an expression. For every TINYDOUBLE T > 0, coord_leq_bound is 1 for x <= x*, 0 for x > x* + T; coord_geq_bound likewise; coord_less_bound is 0 for x >= x* except at x* + T, and lies below 1 by less than T/(x* - x) for x < x*; coord_greater_bound likewise.", "quantifier": "all real arguments, all positive TINYDOUBLE", "why_tests_cant": "the doctests are symbolic and the values of the expressions at and near the bound are not evaluated; at one point per function the expression is 0/0", "anchors": ["nrpy/equations/grhd/Min_Max_and_Piecewise_Expressions.py:21-100"]}
{"id": "C74", "title": "The HLL fluxes use the extreme sound speeds of the two sides and are consistent, upwind and conservative", "statement": "For a positive definite metric, positive lapse, unit 4-velocity and 0 <= cs2 <= 1: find_cp_cm gives exactly the speeds of plane sound waves, in order, enclosing the fluid velocity and within the light cone; find_cmax_cmin gives nonnegative speeds enclosing all sound speeds of both sides, and each is 0 or one of them. HLL_solver is consistent, is the flux of one side when all waves move away from the other, and is the unique flux that satisfies the jump conditions across both waves with one middle state. Equal states have the physical flux in every component when cs2 > 0.", "quantifier": "all metrics, lapses, shifts, velocities, sound speeds, directions and states", "why_tests_cant": "the tests evaluate the expressions at random numbers that are no metric and no unit velocity, so that roots, order and causality cannot be seen", "anchors": ["nrpy/equations/grhd/characteristic_speeds.py:18-130", "nrpy/equations/grhd/HLL_fluxes.py:18-262"]}
{"id": "C75", "title": "The GRHD equations are the conservation of baryon number, electron fraction, energy and momentum on a curved spacetime", "statement": "For every differentiable flow on a spacetime in every reference metric: the time derivative of S_tildeD plus the divergence of its flux plus the connection terms minus the source terms is alpha e^{6 phi} times nabla_mu T^mu_i; for tau_tilde it is alpha e^{6 phi} times alpha nabla_mu T^{mu 0} - nabla_mu (rho u^mu), in a metric whose time derivative is given by KDD; for rho_star and Ye_star it is alpha e^{6 phi} times nabla_mu (rho u^mu) and nabla_mu (Ye rho u^mu). T4UD is that of a perfect fluid. The conserved quantities are those of the Valencia formulation with W = alpha u^0, the rescaled quantities carry the factors ReU of their indices, and e6phi^2 times the determinant of the reference metric is that of the metric.", "quantifier": "all differentiable spacetimes, reference metrics and flows, all points", "why_tests_cant": "the tests compare the expressions with trusted values at one random point; that source, connection and flux terms together form a covariant divergence is a statement about derivatives of arbitrary functions", "anchors": ["nrpy/equations/grhd/GRHD_equations.py:38-438"]}
{"id": "C76", "title": "The basis changes between Cartesian and reference-metric components are those of the coordinate map", "statement": "For every coordinate system and every point inside its chart, the eight functions of jacobians.py that change vectors, one-forms, rank-2 covariant tensors and 4-dimensional contravariant tensors between the Cartesian and the reference-metric basis are mutually inverse in pairs, preserve every contraction of a tensor with one-forms or vectors, take the coordinate basis vectors to the derivatives of the map to Cartesian coordinates, and take the reference metric to the Kronecker delta.", "quantifier": "all coordinate systems of reference_metric, all parameter values and points inside the chart, all vectors, one-forms and tensors", "why_tests_cant": "A test can only compare values at chosen points of chosen coordinate systems; a transposed Jacobian agrees with the right one wherever it is symmetric, and an inverse applied on the wrong side agrees on diagonal Jacobians.", "anchors": ["nrpy/helpers/jacobians.py:28-208"]}
{"id": "C77", "title": "What a passed expression validation says", "statement": "process_dictionary_of_expressions stores for every expression of the dictionary whose key does not contain funcform, under its key or, for nested lists, under key_i with i its position from left to right, its value, unless another expression has the same name. check_zero, for evaluations with errors below 10^(-4/5 dps), accepts every expression that vanishes and no expression of size 2*10^-24 or more. assert_equal of two dictionaries with the same names and shapes passes exactly if values of the same name differ by at most 10^-24 times the size of their mean or are nan. compare_against_trusted passes exactly if the names are the same and every value is within 10^-24 of the trusted one relative to it, or one of them is nan; a file written by compare_or_generate_trusted_results accepts the dictionary it was written from, and every dictionary it accepts has the same names and, for names of a single expression, the same values.", "quantifier": "all dictionaries of expressions, lists of lists and other values, all numerical evaluations", "why_tests_cant": "All tests of the symbolic modules are run through these functions: if they pass too much, no test can tell. The cases in which they do (different names, fewer entries, nan, two expressions with one name, tiny values) are those that tests passing through them cannot show.", "anchors": ["nrpy/validate_expressions/validate_expressions.py:21-482"]}
{"id": "C78", "title": "The initial data are slices of the black-hole spacetimes they are named after", "statement": "At every point outside the coordinate singularities: StaticTrumpet and OffsetKerrSchild satisfy 2 alpha K_ij = (Lie derivative of gamma along beta)_ij with the lapse and shift that come with them, and UIUCBlackHole does so with Kerr's lapse and shift, so that gamma_ij and K_ij of each belong to one stationary spacetime. The line element is Schwarzschild's for the trumpet (areal radius r + M), the pull-back of eta + 2 M R^3/(R^4 + a^2 z^2) L L for OffsetKerrSchild with R = r + r0, and Boyer-Lindquist's Kerr metric under r_BL = r (1 + r_+/(4 r))^2 for UIUCBlackHole. StaticTrumpet and BrillLindquist solve the vacuum Hamiltonian and momentum constraints. The standard gauge gives, for each choice of the conformal factor, alpha > 0 with alpha^6 det(gamma) = det(gammahat) and zero shift, i.e. alpha = 1/psi^2 for BrillLindquist; gauges that come with the data are kept unless overridden; unknown names raise ValueError.", "quantifier": "for all masses, spins, offsets and puncture positions, all points of the domain, all conformal-factor choices", "why_tests_cant": "A test evaluates the expressions at a few numbers and compares with stored values; whether K_ij is the extrinsic curvature of that slice at every point for every mass and spin, and whether the constraints vanish identically, needs the derivatives and a proof.", "anchors": ["nrpy/equations/general_relativity/InitialData_Cartesian.py:25-108", "nrpy/equations/general_relativity/InitialData_Spherical.py:25-303"]}
{"id": "C79", "title": "The quasi-Kinnersley tetrad is orthonormal and null", "statement": "For a positive definite three-metric with its inverse and determinant, a point off the z axis and an invertible Jacobian, the vectors e1, e2, e3 of psi4_tetrads.py are orthonormal in the three-metric, e1 along the rotation about z, the position vector in the plane of e1 and e2 on the side of e2, e3 the vector product of e1 and e2. The four vectors l, n, Re m, Im m satisfy all ten null-tetrad relations: in the coordinate basis, for every lapse and shift, when the normal is built from the metric; by default, in the basis of the unit normal and the coordinate vectors. Read as coordinate components the default vectors are null only for a lapse of one. Any other tetrad name raises ValueError.", "quantifier": "all metrics, points, Jacobians, lapses and shifts", "why_tests_cant": "Orthonormality is a property of every metric and point; a test evaluates one metric with random numbers and compares stored digits, which does not show any of the relations.", "anchors": ["nrpy/equations/general_relativity/psi4_tetrads.py:29-238"]}
{"id": "C80", "title": "psi4.py computes the Newman-Penrose scalar psi4 of a vacuum slice", "statement": "The rank-four expression of psi4.py is the Riemann tensor of the three-metric, for metric fields with commuting second derivatives and their Christoffel symbols. When the spacetime curvature satisfies the equations of Gauss and Codazzi and the Ricci tensor vanishes, psi4_re and psi4_im are the real and imaginary part of R_abcd n^a mbar^b n^c mbar^d for every n and m. Turning m by a phase chi turns psi4 by -2 chi and keeps its modulus; scaling n by lambda scales it by lambda^2. Every independent component of the three derivative arrays is read back, after the round through the C arrays, with its own expression, and no slot is outside of the arrays.", "quantifier": "all slices, curvature tensors, tetrads, phases and components", "why_tests_cant": "The expression is compared with stored values at random points; no test relates it to the curvature of a spacetime, and a slip in an index that leaves one component right passes.", "anchors": ["nrpy/equations/general_relativity/psi4.py:27-347", "nrpy/infrastructures/BHaH/general_relativity/psi4_C_codegen_library.py:73-92"]}
{"id": "C81", "title": "The spin-weighted spherical harmonics are the standard ones, and the C function picks the one asked for", "statement": "Y(s, l, m, th, ph) of spin_weighted_spherical_harmonics.py, in both of its forms (cotangent and 1/tangent), obeys the ladder relations that define the spin-weighted spherical harmonics: the spin-raising operator -(d_th + i/sin(th) d_ph - s cot(th)) takes it to sqrt((l-s)(l+s+1)) Y(s+1,l,m), the spin-lowering operator to -sqrt((l+s)(l-s+1)) Y(s-1,l,m), the operator exp(i ph)(d_th + i cot(th) d_ph - s/sin(th)) to sqrt((l-m)(l+m+1)) Y(s,l,m+1); at s = l it is (-1)^m sqrt((2l+1)/(4 pi) binomial(2l, l-m)) cos(th/2)^(l-m) sin(th/2)^(l+m) exp(i m ph); and the harmonics of one spin weight are orthonormal on the unit sphere. The C function spin_weight_minus2_sph_harmonics stores Y(-2,l,m) for 0 <= l <= max and -l <= m <= l (0 for l < 2) and takes the error exit for l < 0, l > max and |m| > max; for l < |m| <= max the inner switch falls through for want of a break and the harmonic of degree |m| is stored.", "quantifier": "all integers s, l, m with |s|, |m| <= l, all th in (0, pi) and all ph, both values of GenerateMathematicaCode; all maximal degrees and all integer arguments of the C function", "why_tests_cant": "The module's own test compares values for s = -2 and l = 2..8 at one fixed point with stored numbers; the differential relations and the integrals concern every degree and every point, and no test calls the C function outside its bounds.", "anchors": ["nrpy/equations/special_functions/spin_weighted_spherical_harmonics.py:31-87", "nrpy/infrastructures/BHaH/special_functions/spin_weight_minus2_spherical_harmonics.py:31-95"]}
{"id": "C82", "title": "A solution of the TOV equations is a static star of general relativity", "statement": "If P, nu and M of the radius r have the derivatives dP_dr, dnu_dr and dM_dr of TOV_equations.py, with any differentiable energy density rho and with 2 M < r, then the metric -exp(nu) dt^2 + dr^2/(1 - 2M/r) + r^2 (dtheta^2 + sin(theta)^2 dphi^2) solves Einstein's equations G_ab = 8 pi T_ab for the perfect fluid (rho, P) at rest. The pressure gradient is -(rho+P)/2 dnu/dr. A solution r_iso of the fourth equation, and every multiple of it, makes the spatial metric conformally flat: (r/r_iso)^2 (dr_iso^2 + r_iso^2 dOmega^2) is the spatial metric. With rho = P = 0 Schwarzschild's solution, with r_iso = (r - M + sqrt(r^2 - 2 M r))/2, solves all four.", "quantifier": "all functions rho, P, nu, M, r_iso on an interval of radii that obey the equations, all points off the axis, all multiples of r_iso", "why_tests_cant": "The module's test compares the four expressions with stored numbers at one point; it does not say that they are the field equations.", "anchors": ["nrpy/equations/tov/TOV_equations.py:16-43"]}
{"id": "C83", "title": "TOVola's tables are stored, extended, normalised and interpolated correctly", "statement": "Every value the TOVola integration loop saves is stored inside the arrays, one after another, and the 11 values added at negative radius always fit; the extended radii increase strictly and each extended table is even or odd according to its parity; at the surface the normalised tables agree with Schwarzschild's solution of the stellar mass, and outside the interpolation returns that solution with vacuum; the bisection returns the nearest radius whenever the argument is inside the table; the Lagrange interpolation stays inside the arrays and is exact for polynomials of degree below the stencil size; the energy-momentum tensor is that of the perfect fluid at rest in the metric that is set; the equation of state is the polytrope and obeys the first law, and along the right-hand sides of the code the injection energy is constant.", "quantifier": "all numbers of steps, all tables, all stencil sizes, all arguments, all K > 0 and Gamma > 1", "why_tests_cant": "a run produces one star with one stencil size; memory growth, bracket endpoints and exactness need all step counts, all arguments and all polynomials", "anchors": ["nrpy/infrastructures/BHaH/general_relativity/TOVola/TOVola_solve.py:18-480", "nrpy/infrastructures/BHaH/general_relativity/TOVola/TOVola_interp.py:25-198"]}
{"id": "C84", "title": "The generated parameter file reader sets what the file and the command line say, and reads back the default file", "statement": "The descriptor table of cmdline_input_and_parfiles.py contains each commondata parameter for the parameter file of type int, REAL, char[N], int[N] or REAL[N] once, with its type and size and an index below NUM_PARAMETERS. The generated C reader, run on a file of lines name = value, name[n] = {v1, ..., vn} and comments, with any spacing, each shorter than its buffers, sets each parameter of the table to its value, ignores unknown names, leaves all other parameters alone, applies the arguments of the command line over the file, and exits with an error if a parameter is set twice. An int is read modulo 2^32 inside the range of long and rejected outside. Without arguments on the command line, the only line that makes the reader write outside a buffer is one with 16 or more characters between brackets. The file that generate_default_parfile writes is read back to the default values by that reader, when each default fits in the buffers and has no character that is special in the file. Help and wrong numbers of arguments end the program before a file is read. The statement for an argument of the command line is that of the parameter's type, and the functions it calls are generated, so that the C function compiles, if the table is not empty and no steerable parameter is a bool.", "quantifier": "all parameter registries, all tables, all files of that form with all spacings, all command lines, all integers, all initial states", "why_tests_cant": "The doctests compare generated text for one registry; the C reader is not run on any file, and no test says what spacing, long lines, repeated names, large integers or long brackets do.", "anchors": ["nrpy/infrastructures/BHaH/cmdline_input_and_parfiles.py:149-628", "nrpy/infrastructures/BHaH/cmdline_input_and_parfiles.py:661-897"]}
{"id": "C85", "title": "TwoPunctures' coordinate transformations carry the derivatives by the chain rule", "statement": "AB_To_XR, C_To_c and rx3_To_xyz of CoordTransf.py take the first and second derivatives of each field with respect to (A, B, phi), (X, R, phi) and (x, r, phi) to those with respect to (X, R, phi), (x, r, phi) and (x, y, z): if the entries are what the chain rule makes of a function's derivatives in the new coordinates, with the true first and second derivatives of the coordinate functions that the same C function returns, then the exit values are those derivatives. All three in succession return the derivatives in (x, y, z). At every point with -1 < A < 1 and -1 < B < 1 and for b > 0 they divide by nothing that is zero: X > 0, 0 < R < pi and r > 0. The distances from the points x = b and x = -b on the axis are b (cosh X - cos R) and b (cosh X + cos R).", "quantifier": "all values and derivatives of all fields, all numbers of fields, all A in (-3, 1), all B, X, R, phi, all b, off the singular points", "why_tests_cant": "The C code is text inside a Python string and no test of nrpy runs it; a numerical run would show one solution at grid points, where a wrong second derivative only changes the solution that the iteration converges to.", "anchors": ["nrpy/infrastructures/BHaH/general_relativity/TwoPunctures/CoordTransf.py:50-170"]}
{"id": "C86", "title": "schedule.ccl holds every scheduled entry of the thorn once, in its bin, and make.code.defn lists its functions", "statement": "construct_schedule_ccl writes, for a thorn with at least one scheduled function, the preamble, then for each known scheduling bin that has entries a header, numbered from 1 without gaps, and the entries of that bin (compared without case) in the order of the function names, extra entries last, and then the entries of all other bins; FUNC_NAME stands for the function the entry belongs to. No entry of the thorn is lost or doubled and none of another thorn is in it. Without a scheduled function it raises KeyError. make.code.defn lists the functions whose subdirectory is the thorn, each once and in the order of their names, all lines but the last continued, and exactly those files are written.", "quantifier": "all registries, all thorns, all extra entries, all lists of bins that differ without regard to case", "why_tests_cant": "The tests generate the thorns of the example scripts; the flag and the two loops must be right for every mix of bins, cases and thorns.", "anchors": ["nrpy/infrastructures/ETLegacy/schedule_ccl.py:15-123", "nrpy/infrastructures/ETLegacy/make_code_defn.py:15-62", "nrpy/infrastructures/CarpetX/schedule_ccl.py:15-120", "nrpy/infrastructures/CarpetX/make_code_defn.py:15-62"]}
{"id": "C87", "title": "param.ccl declares exactly the parameters the thorn's functions use, once each", "statement": "construct_param_ccl writes one declaration for each parameter that a function of the thorn uses, in the order of the names, with the type, name and default value the parameter is registered with, and returns the same names, each once. It raises KeyError if and only if a used parameter is not registered. The text does not depend on the order in which functions were registered.", "quantifier": "all registries of functions and parameters, all thorns, all orders of registration", "why_tests_cant": "The tests generate the thorns of the example scripts, where every parameter is registered and the order is fixed.", "anchors": ["nrpy/infrastructures/ETLegacy/param_ccl.py:16-59", "nrpy/infrastructures/CarpetX/param_ccl.py:16-59"]}
{"id": "C88", "title": "interface.ccl declares the gridfunctions in their groups with the right parities", "statement": "The groups that construct_interface_ccl declares hold exactly the registered gridfunctions: for CarpetX the AUX ones always, and the evolved ones, their right-hand sides and the AUXEVOL ones if and only if the thorn evolves; for ETLegacy all of them only if the thorn evolves, and the AUXEVOL ones only if there are evolved ones. The group of right-hand sides lists the evolved variables in the same order, and the rhs tag of CarpetX names it. The parities tag has three signs for each member, in the order of the members: for a component of a tensor the sign under the reflection of coordinate k is -1 to the number of its indices that are k.", "quantifier": "all histories of registrations, all gridfunctions of rank 0, 1 and 2 in three dimensions and of rank 0 and 2 in four", "why_tests_cant": "No test runs the Einstein Toolkit; a wrong sign shows only at a symmetry boundary of one component.", "anchors": ["nrpy/infrastructures/CarpetX/interface_ccl.py:62-148", "nrpy/infrastructures/ETLegacy/interface_ccl.py:101-149"]}
