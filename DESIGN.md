# Formal model of nrpy/nrpy: design

Source: `/repo` (pinned), read as text only.  Proof assistant: Coq 8.16.1, sources in
`rocq/theories` (logical name `Verif`).  This file was committed before the first proof and is
kept current; section 4 records what turned out false of the code.

## 1. Conventions

* Python functions become total Gallina functions.  Exceptions are values: `py A = Ok a | Err e`
  with `e` the Python exception class (`PyBase.v`).  Global dictionaries are explicit state
  (insertion-ordered association lists, as in CPython >= 3.7); a stateful function maps a state to
  `state * py A`, so a partial update before a raise is visible.
* C code emitted as text by nrpy is modelled by the meaning of the emitted statements (array
  updates, loops); the text-producing code itself is modelled where the property is about the text
  (loop headers/braces, `#define` names, variable names).
* Numbers: SymPy rationals are `Qc` (canonical rationals, Leibniz equality) or an arbitrary field
  (a Section over `F` with `field_theory`) when the property is a polynomial identity; C `int` is `Z`
  or `nat` (no overflow); C `double` is idealised as an exact field element (no rounding).
* Each model definition cites file and lines.  Model files `<Area>.v` hold definitions; specification
  and proofs are in `<Area>Facts.v` / `<Area>Spec.v`; `Properties*.v` re-state the headline theorems
  (`exact lemma`) with `Print Assumptions`, and `Example`s showing the hypotheses are met.
* `X_refuted` is a proof that property X, as stated in `properties.jsonl`, fails of the faithful
  model, with a concrete witness; the strongest true variant is proved beside it and the MANIFEST
  status is then `partial` with a note "refuted as stated".

## 2. Per-property plan

| id | modelled | proof |
|----|----------|-------|
| C01 | `NRPyParameter.__init__`, `register_param` over an insertion-ordered dict | induction over call lists; spec = first valid call with that name |
| C02 | `parval_from_str` (with `split("::")[-1]`), `set_parval_from_str` | get/set laws, frame; `_refuted` for the prefixed spelling of set; repaired law for names without `::` |
| C03 | `CodeParameter.__init__`, single and bulk registration, `adjust_CodeParam_default` | invariant over op lists; `C03_adjust` says exactly which default changes and that nothing else does; `C03_adjust_to_unset_refuted` is the excluded case |
| C04 | `register_CodeParameters` loop with early exit | `_refuted` twice (overwrite vs first-wins; partial registration); `C04_bulk_result` gives the full registry after a successful bulk call, `C04_bulk_is_one_by_one_when_fresh` the equality with one-by-one registration when no name is registered, `C04_bad_shape` the rejected shapes |
| C05 | `GridFunction`, three subclasses' constructors, `register_gridfunctions` | invariant over op lists; ETLegacy group check `_refuted` |
| C06 | `gridfunction_lists` (filter + stable sort by `lower()`) | permutation, sortedness, disjointness |
| C07 | `gridfunction_defines` numbering | enumeration bijective; macro clash `_refuted`, injective when names are case-insensitively distinct |
| C08 | `set_parity_types` | closed form and injectivity in 3D; rank-1 dim-4 collision `_refuted` |
| C09 | single_rank1/2/N registration | exact key set, by dimension; `_refuted` for rank-1 dim 4 |
| C10, C11, C13, C14, C15 | `setup_FD_matrix…lowlevel` as Doolittle LU of the Vandermonde matrix over Qc, triangular inverses, `compute_fdcoeffs_fdstencl` | general LU theorem: Schur complements are divided differences times node products, hence pivots non-zero; moment equations; polynomial exactness by linearity |
| C12 | dKOD branch | last row of the inverse Vandermonde = reciprocal node products; closed form by factorials |
| C16 | `Matrix_dict` cache as state | cache invariant over call histories |
| C17 | name parser on strings | round-trip lemma for names built by the constructor, all base names |
| C18 | read list, temp names, `unique_idx` sort key | completeness, NoDup, injectivity of names; key monotone in the window, `_refuted` outside |
| C19 | `symmetrize_rank2/3/4` loops as function updates | symmetric result for every dimension; interplay of combined options |
| C20 | six inverters over an arbitrary field | `field` identities, Leibniz determinant as spec |
| C21 | Levi-Civita formulas | finite index cases x `field` |
| C22 | `Parallel.v`: `deep_update`, `unpack_NRPy_environment_dict`, `register_func_call`, `do_parallel_codegen`; a schedule is a list of (worker, call) in completion order, workers keep what they registered before; process creation, pickling and logging are not modelled | `ParallelFacts.v`: environments as maps from names (paths for extras); `C22_schedule`, `C22_sequential`, `C22_same`; registry of calls `C22_register`, `C22_keys_injective`, `C22_calls_kept`; three `_refuted` theorems show the hypotheses are needed |
| C23 | `CacheFS.v`: cache files as byte strings, `write_cached` with a crash point, `read_cached`, `is_cached`, `cached_simplify`; pickle, SHA-256, simplify are parameters | `PropCacheFS.v`: the last write determines the file; `C23_last_write`, `C23_never_written`, `C23_simplify`; crash clause `C23_crash_refuted`, `C23_simplify_crash_refuted`, `C23_unpicklable_result_refuted` |
| C24 | `CacheFS.v`: `ConditionalFileUpdater` enter/exit with chunks, exception point, text-mode newline translation; messages left out | `C24_holds`, `C24_untouched`, `C24_repeat`, `C24_line_ends` (which bytes read as line ends); `C24_raise_refuted`, `C24_blank_refuted`, `C24_carriage_return_refuted` |
| C25 | list helpers | list induction; `product` single-iterable/nesting deviations stated |
| C26 | `loop1D`/`loop` as header lists; big-step semantics of emitted `for` nests | nest semantics = lexicographic product of ranges; tiled = permutation of untiled; brace balance |
| C27 | `ExprTree` on rose trees | structural induction |
| C28 | `expr_convert_to_simd_intrins`, all passes as top-down rewriting over `ExprTree` expressions; values in an arbitrary field | each pattern by `ring`, passes by induction on traversal depth; `_refuted` for duplicate terms and undeclared 1 |
| C29 | `Cse.v`: `cse_postprocess`, all phases (equations moved, constants, level sort, back-substitution loop with its index arithmetic, unused removal); SymPy's evaluation after substitution is the parameter `norm` | `CseFacts.v`, `CsePostFacts.v`: one invariant (definitions hold, outputs keep values, closed, no duplicates) through every phase; the loop measure `length - i`; `exec` of ordered definitions. Headline `C29_value`, `C29_total`, `C29_cse` |
| C30 | `Cse.v`: `cse_preprocess` (number table, signs, partial factoring via the parameter `collect`, powers of -1, remaining ones); `debug=False` | `CsePreFacts.v`: table invariant (name is a function of the number, injective), value preservation per step. `C30_value`, `C30_declared`, `C30_substitute`, `C30_substitute_neg`; `C30_fractional_power_refuted`, `C30_undeclared_one_refuted` |
| C31 | `CFunction.__init__` checks in order, `generate_full_function` text, `function_name_and_subdir_with_CoordSystem`, `register_CFunction`; clang-format an arbitrary partial function; ET_* arguments opaque | `fold_left` invariant over all histories; exact acceptance condition; entries are only appended; names injective for underscore-free systems, `_refuted` otherwise |
| C32 | MoL.v: the statement list emitted for the four storage schemes (gen_step) and its meaning on an array store (run_step), any field of numbers | simulation invariants per scheme against the textbook RK step (MoLFacts.v, PropMoL.v); built-in tables by a reflected check; five _refuted witnesses |
| C33 | Butcher.v: all tables over Q(sqrt 21) | rooted-tree order conditions with a complete tree enumeration, evaluated on plain fractions related to the field by a parametricity lemma (ButcherOrder.v, ButcherCompute.v, PropButcher.v); tall and bushy trees give the linear and quadrature theorems for the generated code; DP8 and ADP8 by fixed-point interval evaluation over a shared table of all forests (PropButcherNear.v) |
| C34 | Butcher.v ab_coef/ab_table: weight formula with exact polynomial integration and the growing matrix | Lagrange basis at 0,-1,..,-(n-1), root counting, matrix invariant, all n (PropAB.v) |
| C35 | Chare.v: size checks, charecommstruct_set_up as the list of stores of its six nested loops into uninitialised blocks, index macros | One-dimensional ownership lemma (exists, unique, interior), injectivity of mixed-radix indices, NoDup of all stored indices; inverse maps from the store lists |
| C36 | BCs.v: layer_faces, face_pairs, outer_batches (bcstruct_set_up step 2), outer_assign, run_batches (apply_bcs_outerextrap_and_inner step 1). In-bounds map abstract; indices unbounded integers (the code stores them in a short); REAL exact; each assignment atomic | Boxes grown one direction at a time; a memory satisfying the extrapolation relation is unique, hence schedule independence and polynomial exactness. No axioms |
| C37 | BCs.v: inner_points, inner_bc_array (bcstruct_set_up step 1), inner_assign, run_inner, apply_bcs_outerextrap_and_inner. Parity table abstract | Independent assignments commute: targets distinct, no source is a target. No axioms |
| C38 | Checkpoint.v: write_checkpoint and read_checkpoint over a file of typed cells, memory cells possibly uninitialised, the write condition over rationals | Round trip by induction over grids; every strict prefix analysed; refutations by witness |
| C39 | MoL.v gridfunction_names, malloc_list, free_list, struct_members, pointer_targets | list reasoning for every name and table (PropMoL.v); Euler pointer _refuted |
| C40 | Registry.v: GridCommonData, register_griddata_commondata, the registrations made while building griddata_struct | Invariant over call lists; exact effect of one call; `C40_struct_fields` reads the C text (comments and blanks removed) |
| C41 | Kernel.v: c_codegen l.359-446, gridfunction_management_and_FD_codegen l.742-1190, proto_FD_operators_to_sympy_expressions, FDFunction calls; semantics of the emitted statements over exact rationals (an undeclared or twice declared name is a failure). Value-preserving rewriting inside a statement group (CSE etc.) is modelled elsewhere | C41_generates, C41_kernel_value (soundness: outputs equal expression values under `means`), C41_kernel_runs (progress), C41_polynomial_data (exactness through C10/C12). Six refuted cases, see section 4 |
| C42 | the three Pow tables row by row, first match, fallback; `nrpyAbs` | denotational grammar of C text over R; derivation for every row; `C42_cbrt_negative_refuted` outside the real powers |
| C43 | `max_numpts__i012_pts__numpts_2D`, `simple_loop_1D/2D` index arrays and visiting order; C cast as truncation of exact rationals | nearest-centre over R for all sizes; four `_refuted` cases |
| C44 | `zero_out_derivatives_across_symmetry_axes` on symbol names | list induction |
| C45 | symbol extraction loop, uniq, upwind replace; SymPy's sort an arbitrary permutation | list induction; `_refuted` for NoDup with upwinding |
| C46 | `os.path.join`, `os.path.normpath`, `subdirectory_depth`, `rel_path_to_root_directory` on strings | normal form = names on top of leading ".."; popping argument; iff |
| C47 | `prefix_with_star` (split, strip, join) and the comment in `generate_full_function` | occurrence of "*/" in a concatenation, preserved by split/strip/join; iff |
| C48 | prototype text and `replace(";","")` | string reasoning; `_refuted` with a semicolon in a part |
| C49 | `clang_format` with its cache as a dictionary keyed by the concatenated identifier; the program arbitrary | cache invariant over call sequences; identifier injective for suffix-free options; `_refuted` otherwise |
| C50 | `validate_strings` over a file dictionary with text-mode reading | history invariant; `_refuted` for carriage returns |
| C51 | ChareCoord.v: dxx, invdxx, xx of the whole grid; xxmin, xxmax, xx of a chare, over canonical rationals, one direction | Field computations; xxmax witness 2 chares of 3 points |
| C52 | Chare.v: send_neighbor_data and process_ghost as lists of copies through the face buffers, exchange along x, y, z | One-message lemma (pack then unpack), then an invariant on the set of correct points that grows by one direction per exchange |
| C53 | Registry.v: format_c_declaration, the struct lines and their sort, register_BHaH_defines, assembly of BHaH_defines.h | Sorted permutations are equal; comparison of lines decided before the semicolon; dictionary content as concatenation of each module's texts; PropRegistryText.v: macros and section order |
| C54 | Registry.v: the statements and declarations emitted by CodeParameters.py, and their execution on struct fields and locals | Independent assignments commute; specification of the selected parameters; end-to-end composition; `C54_local_code` reads the emitted C text |
| C55 | Every macro body of the four branches of simd_intrinsics.h and the two of cuda_intrinsics.h as a tree of intrinsic calls (Intrinsics.v); the vendor's meaning of each intrinsic is a table (trusted); vectors are lists of lanes; AbsSIMD and UPWIND_ALG on 64-bit words with binary64 decoding (Coq.Floats.SpecFloat). | Case analysis over branches and functions with ring in an arbitrary field; composed with C28_value lane by lane; bit lemmas for the masks. Refuted: NegFusedMulSubSIMD with SSE2+FMA, its overflow without FMA, and the undefined macros. |
| C56 | SimdLoop.v: simple_loop of BHaH, ETLegacy and CarpetX as text; a memory of cells, the stores of one body execution with w lanes for every gridfunction, the MoL update loop | The text is the C26 nest; two cells coincide only if they are the same cell or the earlier row spills into the later one, so in serial order the owner stores last, and for threads only one task stores to an interior cell, so every interleaving gives the same value. The kernel is a function of the point: it reads only arrays it does not write. |
| C57 | RfmPrecompute.v: the constructor branch by branch (statements as terms plus their exact text), register_CFunctions_rfm_precompute on top of the CFunction model, and a bounds-checked meaning for the generated malloc/define/read/free statements. SymPy's expression, free_symbols, ccode and evaluation are parameters; register_BHaH_defines is applied to the returned text. | RfmPrecomputeFacts.v: closed form of the loop, invariant of the stores, index decoding by division. C57_three_refuted is the witness for three-coordinate arrays. |
| C58 | RefMetric.v: the expressions as terms, sp.diff as a symbolic derivative with SymPy's treatment of 0 and 1, every coordinate-system method branch by branch, the dispatch, the 3x3 inversions (Inverter.v) and all hatted quantities. SymPy's further simplification and sp.simplify are not modelled (they keep values); the symmetry self-checks l.281-295 are left out. | RefMetricReal.v gives real values and proves the symbolic derivative correct wherever the expression is differentiable; RefMetricCalc.v symmetry of second derivatives; RefMetricFacts.v the four families and regularity of all systems; RefMetricInvFacts.v inversion and spherical coordinates; RefMetricFlat.v metric, Jacobians, connection; RefMetricAccept.v names and extents. |
| C59 | RefMetricPre.v: make_replacements, the free symbols, Step 6.b (value of a symbol parsed from its name), Step 6.c (substitution), rfm_dict lookup. Over RefMetric.v. | For all systems: instantiating the generic functions commutes with differentiation up to 0/1 simplification, so both forms are equal as real functions (RefMetricPreFacts.v, RefMetricPreKinds.v, RefMetricPreVals.v, PropRefMetricPre.v). Composition with C57 for the arrays. Lookup by an invariant on the dictionary. |
| C60 | GRMetric.v: ADM_to_g4DD, ADM_to_g4UU, g4DD_to_ADM over any field, with the inverters of Inverter.v | PropGRMetric.v: line element, acceptance, two-sided inverse, determinant by field computation; the shift read back characterised exactly, with the refutation of the round trip |
| C61 | BSSN.v: BSSN_quantities, ADM_to_BSSN, BSSN_to_ADM, BSSN_RHSs over the reals | PropBSSNConv.v: conformal decomposition, both compositions and the errors, from lemmas on 3x3 inverses (BSSNFacts.v) |
| C62 | BSSN.v (values of BSSN_quantities.py, BSSN_to_ADM.py, BSSN_RHSs.py), RefMetric.v for the reference metric; fields as functions of the coordinates in BSSNCalc.v | PropBSSNDeriv.v: derivative calculus along coordinate lines (BSSNCalc.v), geometry of the reference metrics from C58/C59 (BSSNGeo.v), derivative of the inverse and of the determinant (BSSNInv.v), connections (BSSNConn.v) |
| C63 | BSSN.v (RbarDD and the quantities it is made of), RefMetric.v for the reference metric | PropBSSNRicci.v: flatness of the reference metric (BSSNGeo.v), Ricci tensor of a connection differing from a flat one by a tensor (BSSNRicciFacts.v), the polynomial identities in the connection coefficients (BSSNRicci.v) |
| C64 | BSSN.v (BSSN_RHSs.py Steps 2 to 5, BSSN_to_ADM.py), RefMetric.v | PropBSSNEvol.v, from the derivative of determinants and inverses along a flow (BSSNTime.v) and contractions (BSSNEvolAlg.v); concrete fields and flow in BSSNEvolEx.v |
| C65 | BSSNConstraints.v (BSSN_constraints.py), BSSN.v, RefMetric.v | PropBSSNAdm.v: Ricci tensor of the conformally rescaled metric (BSSNPhys.v, from C63), algebra of the contractions (BSSNEvolAlg.v, BSSNMomAlg.v) |
| C66 | BSSN.v (Lambdabar_rhsU and what it uses), BSSNConstraints.v (MU_constraint) | BSSNLamAlg.v proves for arbitrary components what a change of the metric along a vector field and by a tensor does to its connection and to the contraction with the difference of the connections; the flatness of the reference metric turns the Lie derivative of its connection into the second covariant derivative the code writes out. PropBSSNLam.v differentiates gammabar_rhsDD in space, the contraction in time, and compares; ex_C66 is the case of ev_point (SinhSymTP, chi) with fields that change linearly in time. |
| C67 | T4munu.v: the four functions of T4munu.py function by function over the reals; PI and T4UU are arbitrary values, T4UU symmetric as declared; the calls in BSSN_RHSs.py and BSSN_constraints.py | T4munuFacts.v, PropT4munu.v: contraction of the projector and the normal with the decomposition E nn + nJ + Jn + P; then the theorems behind C64, C65 and C66 with arbitrary source terms |
| C68 | BSSNGauge.v: BSSN_gauge_RHSs branch by branch over the reals; alpha_dupD, betU_dupD and eta are arguments; the cached BU lists are state (which entries a call has overwritten with 0) | BSSNGaugeFacts.v, PropBSSNGauge.v: the branches brought into the form beta^j D_j + source, derivatives in time and space by uniqueness of limits, connections by C62_connection; the cache by induction over the calls; refutation by a sequence of two calls |
| C69 | `WaveEquation.v`: PlaneWave, SphericalGaussian and the r0 expressions as SymPy terms (`subst` for .subs, `diff` for sp.diff), the WaveType dispatch, the Cartesian and curvilinear right-hand sides as values. Not modelled: registration of gridfunctions and CodeParameters. | `PropWaveEquation.v`, `WaveFacts.v`: chain rule for expressions along a curve and for differentiable functions of three variables; ghatUU contracted with two Jacobians is the identity, so the connection terms cancel. The solutions by symbolic second derivatives and ring; the origin by the derivative of the odd numerator; positivity by the mean value theorem and (1-2y)exp(-y) > -1. |
| C70 | NRPyElliptic.v: ConformallyFlat_SourceTerms.py function by function over the expressions of RefMetric.v, with kronecker_delta as it is in the source; the relaxation right-hand sides over values of the derivatives. Not modelled: registration of gridfunctions and parameters; replacing Cartx, Carty, Cartz one after the other is replacing them at once. | C70_curvature, C70_trace and C70_source say what is computed in terms of the Bowen-York curvature; C70_spin that it solves the momentum constraint without momenta; C70_background that psi_background is harmonic; C70_hamiltonian and C70_fixed_points that the relaxation solves the Hamiltonian constraint in every coordinate system. Refuted with momenta: C70_tracefree_refuted, C70_source_refuted. |
| C71 | LorentzBoost.v: LorentzBoost.py function by function over the reals; a division by zero or the square root of a nonpositive number in the matrix is None. | C71_defined: the domain. C71_lorentz, C71_roundtrip, C71_rest_frame, C71_along_x: the matrix, from its closed form. C71_pairings: contraction invariance for the four index structures, by splitting off one index at a time. C71_identity_refuted: velocity zero has no boost. |
| C72 | TensorRotation.v: tensor_rotation.py with sympy's Quaternion.from_axis_angle, quaternion product and conjugation written out; lists of any length for vectors and matrices. | C72_vector and C72_matrix: equality with the Rodrigues matrix. C72_rotation: what that matrix is. C72_invariants, C72_compose: on results of the code. C72_errors: exactly which calls raise. C72_zero_axis_refuted: nan. |
| C73 | GRHD.v: Min_Max_and_Piecewise_Expressions.py over the reals, with an argument that is the number 0 told apart from an expression as in the source, and 0/0 as None; TINYDOUBLE any positive number. | C73_minimum by cases of the absolute value. C73_weak_bounds, C73_strict_bounds: the values away from the exceptional points. C73_step_refuted: the documentation is not met. |
| C74 | GRHD.v: characteristic_speeds.py and HLL_fluxes.py over the reals, with ADM_to_g4UU of GRMetric.v. The states of the two sides share the metric, as in the source. | C74_sound_speeds: the discriminant is shown nonnegative from the Cauchy-Schwarz inequality of the metric, so the guard against a negative one is never used. C74_signal_speeds, C74_solver, C74_consistency. C74_divisor_refuted: cmax + cmin can be 0. |
| C75 | GRHD.v: the methods of GRHD_Equations one by one over values of the fields and their derivatives. A flow (record flow in PropGRHD.v) gives these values at every event and says that the derivatives in it are those of the functions, that the volume of the reference metric has the derivative given by its connection, and that the 4-velocity is made from VU as in the source. Not modelled: the reference metric and BSSN quantities are arbitrary functions here; that the code computes them correctly is C56 to C69. | C75_momentum: product rule, cancellation of the reference connection (hat_cancel) and the source as 1/2 T^{mu nu} d_i g_{mu nu} (plain_source). C75_energy: the connection symbols Gamma^0_{mu nu} of the 4-metric in terms of K_ij and the lapse. C75_continuity, C75_fluid, C75_conserved, C75_volume. ex_C75_flow and ex_C75_equilibrium: a fluid in hydrostatic equilibrium. |
| C76 | `Jacobians.v`: the eight basis-change functions, over the Jacobians of the reference-metric model (`RefMetric.v`), with values at a point instead of sympy expressions. | `PropJacobians.v`: round trips from J⁻¹J = JJ⁻¹ = 1 (C58), contractions by the round trip, basis vectors as `derivable_pt_lim` of the map to Cartesian coordinates, the metric by C58_metric. |
| C77 | `ValidateExpr.v`: flatten_tensor, convert_one_expression_to_mpfmpc, process_dictionary_of_expressions, check_zero, assert_equal, compare_against_trusted and compare_or_generate_trusted_results; numbers are complex reals or nan, the evaluation of one expression at a precision for a choice of symbol values is a parameter, printing and files (beyond their contents) are left out. | `PropValidateExpr.v`: the loop is a fold over a list of writes, whose members are the pairs of an inductive relation between dictionary, name and expression; the sorted order of the keys gives equal positions for dictionaries of the same shape; the two-precision test by the triangle inequality. |
| C78 | InitialData.v: BrillLindquist, UIUCBlackHole, StaticTrumpet and OffsetKerrSchild as SymPy terms, the choice by IDtype, and the gauge (through the model of ADM_to_BSSN). CodeParameter registration left out (C43). | PropInitialData.v, PropInitialKerr.v, PropInitialUIUC.v, PropInitialBL.v: derivatives by diff_correct; the algebra by field after replacing each square root by a variable with its defining equation; the constraints of conformally flat data from a general lemma for harmonic psi. |
| C79 | Psi4.v: psi4_tetrads.py step by step at a point (the two Cartesian vectors, the vector product, Gram-Schmidt through update_omega, the four-vectors with both normals, the tetrad check). | PropPsi4Tetrad.v: inner products as an abstract form, the third vector shown orthogonal before normalisation, so that the last Gram-Schmidt step changes nothing; Cauchy-Schwarz-free positivity from linear independence. |
| C80 | Psi4.v: psi4.py step by step (curvature, the three terms, the tetrad products, the three pieces) and the lists that link the C functions, with symbols of ordered indices. | PropPsi4.v: the Riemann tensor from the metric-compatibility of the connection and d_unique; the contraction by writing the curvature tensor in its independent blocks; the arrays by evaluating the writes and reads for every index tuple (all 81, 27 and 27). |
| C81 | SpinHarmonics.v: Y with its sum over r, binomials and factorials at negative arguments as SymPy has them, both angle forms, prefactor (1/infinity = 0); the nested C switch with its fallthrough. Not modelled: cached_simplify (value-preserving), the text of the generated expressions, the poles | SpinHarmonicsFacts.v: term-by-term ladder identities of the Goldberg sum by Pascal and absorption of binomials; SpinHarmonicsNorm.v: normalisation, ladder in m, integrals by the beta integral at s = l and descent in s with the primitive A_s A_(s+1) sin, orthogonality from the Wronskian-like primitive; PropSpinHarmonics.v: link of the Python sum to these; switch by induction over the cases |
| C82 | TOVEquations.v: the four right-hand sides as values; the symbol M_PI is pi | PropTOV.v: general definitions of Levi-Civita connection, Ricci tensor and Einstein's equations in four coordinates; connection and its derivatives given as products of functions of r and of theta; the components are field identities after the equations of the code are put in for the derivatives |
| C83 | Tovola.v: evaluate_rho_and_eps, TOVola_ODE, the saving loop, extend_to_negative_r, the normalisation, the bisection, the interpolation and the data of TOVola_solve.py and TOVola_interp.py, over the reals | PropTovola.v: invariant of the growth of the arrays; nth of the extended list; square completion at the surface; loop invariant of the bisection; Lagrange polynomials by counting roots; derivative of the logarithm of the injection energy by the hydrostatic equation of C82 |
| C84 | Parfile.v: the C reader of parameter files as functions on lists of characters (strtok, trim, safe_copy, strtol, parse_param, parse_value, the line loop, fgets, the choice by argc), the generated table, the statements for steerable parameters, generate_default_parfile with its alignment of comments. strtod and the printed forms of Python values are parameters; NUL bytes and messages are left out | C84_table, C84_reads, C84_duplicate, C84_default, C84_integer, C84_overflow, C84_usage, C84_bool_steer for all registries, files and arguments; five refutations with witnesses |
| C85 | TPCoord.v: the three C functions on lists of derivs (one entry for each field), exact reals, GSL's complex numbers as pairs, Pih = PI/2 | C85_AB, C85_C, C85_rx3 (the coordinate functions' derivatives are derivable_pt_lim facts, the rest is algebra), C85_all, C85_interior, C85_distance |
| C86 | Schedule.v: construct_schedule_ccl (the dictionary of entries, the loop over the bins with its flags and step counter, the remaining bins, the text) and output_CFunctions_and_construct_make_code_defn, for ETLegacy and CarpetX. The file updater and the warnings are left out. | PropSchedule.v: the text equals one described without flags or counters (C86_schedule), by an invariant on the flags; C86_once: a permutation of what was asked for; C86_fails: exactly when it raises KeyError; C86_sources, C86_files, C86_compiled for make.code.defn; refutations with witnesses: C86_headers_refuted, C86_compiled_refuted, C86_empty_refuted. |
| C87 | ParamCCL.v: construct_param_ccl (the loop that collects the names, the sorted loop that writes the declarations, the text). The text of a default value is taken as given; the file updater is left out. | PropParamCCL.v: C87_declares and C87_unregistered by induction over the functions and the names; C87_order from the uniqueness of sorted lists. |
| C88 | Interface.v: the groups of both construct_interface_ccl as records (name, time levels, tags, members), construct_parity_string; gridfunction_lists and set_parity_types from Grid.v. The fixed texts are left out. | PropInterface.v: C88_declared and C88_legacy say what is declared; C88_rhs pairs the members; C88_parities by C08_parity_types and the cases of the components; C88_legacy_refuted with witnesses. |

## 3. Trusted base

* The Coq 8.16.1 kernel (`coqc`, re-checked by `coqchk`), including `vm_compute`.
* `Print Assumptions` of every headline theorem is printed at the end of the `Prop*.v` files; the expected answer
  is "Closed under the global context" except where section 5 lists a standard-library axiom.
* The correspondence between the Gallina definitions and the Python/C text, established by reading
  (each definition cites its lines).  Nothing was extracted or executed.
* Not modelled: SymPy itself (simplification, printing, automatic evaluation) beyond the laws stated
  as hypotheses; floating-point rounding; C integer overflow; the C compiler, OpenMP and Charm++
  runtimes beyond "batches in order, elements of a batch in any order"; the operating system beyond
  "a write may stop at any prefix".

## 4. Findings (properties false of the code as written)

Each entry is a statement one would expect of the code and that is false of it.  Where a theorem is named it holds a concrete witness
against the model; entries without a theorem were found while reading and are outside what is modelled.  The claims in
`properties.jsonl` are the strongest true versions.

| Property | Finding | Theorem |
|---|---|---|
| C02 | The setter accepts names that merely start like a registered parameter; a name with "::" in it cannot be read back | C02_setter_accepts_prefix_refuted, C02_colon_name_unreadable_refuted |
| C03 | Adjusting a CodeParameter default to "unset" is accepted | C03_adjust_to_unset_refuted |
| C04 | Bulk registration of CodeParameters overwrites where single registration raises; a failing bulk call registers a part | C04_bulk_equals_single_refuted, C04_all_or_nothing_refuted |
| C05 | Gridfunction groups are not checked for ETLegacy; tensor base names that end in a digit are accepted | C05_ETLegacy_group_refuted, C05_tensor_basename_refuted |
| C07 | Two gridfunctions differing in case share one C macro | C07_case_aliasing_refuted |
| C08 | Rank-1 registration ignores dimension 4 | C08_vector_dim4_refuted |
| C09 | Declared tensors: rank 1 in dimension 4, antisymmetric diagonal, dimension 0, and name clashes from dimension 12 on | C09_rank1_dim4_refuted, C09_antisymmetric_refuted, C09_rank2_dim0_refuted, C09_dim12_name_clash_refuted |
| C17 | Base names containing U or D are rejected or misread | C17_base_with_UD_refuted |
| C18 | The names of two stencil points can coincide with a gridfunction called like "a_i0p1"; memory order fails outside offsets -50..49 | C18_name_clash_refuted, C18_order_refuted |
| C19 | Overlapping symmetry pairs are not both imposed | C19_overlapping_pairs_refuted |
| C22 | Parallel code generation depends on the schedule when tasks share names, change existing entries or share a module | C22_same_name_refuted, C22_changed_entry_refuted, C22_shared_module_refuted |
| C23 | An interrupted cache write leaves an unreadable entry; an unpicklable result leaves an empty file | C23_crash_refuted, C23_simplify_crash_refuted, C23_unpicklable_result_refuted |
| C24 | ConditionalFileUpdater: a raising body still overwrites the file; blank text creates no file; text with CR is rewritten each time | C24_raise_refuted, C24_blank_refuted, C24_carriage_return_refuted |
| C25 | `product` with a single or no iterable raises, ignores repeat with several iterables, never returns for negative repeat | C25_product_refuted, C25_product_repeat_ignored_refuted, C25_repeat_negative_refuted |
| C28 | The SIMD subtraction step drops equal terms; the exponents -1/2, -3/2, -5/2 use an undeclared `_Integer_1` | C28_equal_terms_refuted, C28_undeclared_one_refuted |
| C29 | A negative product at index 0 makes the loop skip the next entry | (recorded in C29's statement) |
| C30 | A power of -1 with fractional exponent is truncated; its constant may be undeclared | C30_fractional_power_refuted, C30_undeclared_one_refuted |
| C31 | Qualified C function names collide; the empty name with a CoordSystem is accepted | C31_qualified_injective_refuted |
| C32 | Euler path ignores b; one-stage tables not named Euler read an uninitialised total; zero sub-diagonal or last weight break the diagonal path; the RK3 path differs if the post-RHS function modifies written points | C32_euler_weight_refuted, C32_one_stage_refuted, C32_zero_subdiagonal_refuted, C32_zero_last_weight_refuted, C32_rk3_post_refuted |
| C33 | The coefficients of DP8 do not satisfy the order conditions exactly | C33_dp8_refuted |
| C34 | The order-1 Adams-Bashforth table has a spurious row | C34_order1_refuted |
| C36 | Outer boundary filling races on grids thinner than two ghost zones | C36_thin_grid_refuted |
| C37 | Inner boundary copies depend on order if a source is itself an inner point | C37_chained_sources_refuted |
| C38 | A crash during checkpoint writing loses the previous checkpoint; a checkpoint due exactly midway is missed | C38_crash_refuted, C38_due_midway_refuted |
| C39 | MoL Euler: the diagnostics pointer names an undeclared array | C39_pointers_refuted |
| C40 | register_griddata_struct cannot be called twice | (stated in C40) |
| C41 | Upwinding without a control vector is silently downwinded; explicit ddnD symbols are undeclared; ddnD with dupD is declared twice; a stale FDFunctions_dict raises or calls the wrong derivative | C41_no_control_vector_refuted, C41_control_vector_read_refuted, C41_explicit_downwind_refuted, C41_both_winds_refuted, C41_stale_functions_raise_refuted, C41_stale_functions_wrong_refuted |
| C42 | cbrt of a negative base is not the principal value | C42_cbrt_negative_refuted |
| C43 | One azimuthal cell gives a ghost index; odd azimuthal sizes are not nearest; the wedge's xy-plane lies outside the grid; "no points" stores into zero-length arrays | C43_single_cell_ghost_refuted, C43_odd_azimuth_refuted, C43_wedge_xy_refuted, C43_no_points_stores_refuted |
| C44 | "_d" in a base name is read as a derivative | C44_order_misjudged_refuted, C44_plain_component_zeroed_refuted |
| C45 | Upwinding duplicates an explicitly written ddnD symbol | C45_upwind_duplicates_refuted |
| C46 | A subdirectory outside the project root gets a wrong prefix | C46_outside_refuted |
| C48 | Semicolons of params are dropped from the definition but not from the prototype | C48_semicolon_refuted |
| C49 | The clang-format cache id is ambiguous | C49_transparent_refuted |
| C50 | validate_strings: text with CR fails against its own trusted file; two descriptions can share one file | C50_carriage_return_refuted, C50_shared_file_refuted |
| C51 | superB: a chare's xxmax is the global one plus an offset | C51_xxmax_refuted |
| C53 | The order of griddata members is the order of registration; an extra commondata declaration can repeat a parameter | C53_griddata_order_refuted, C53_extra_clash_refuted |
| C54 | String defaults are lower-cased; char defaults are used as printf formats; the NOSIMD name can clash | C54_lowercase_refuted, C54_format_refuted, C54_simd_clash_refuted |
| C55 | NegFusedMulSubSIMD is wrong with SSE2 and FMA (simd_intrinsics.h l.165); the unfused form overflows for finite results; four macros used by the generator are undefined | C55_sse2_fma_refuted, C55_unfused_overflow_refuted, C55_undefined_macros_refuted |
| C56 | SIMD loops spill past the row unless the width divides Nxx0; over all points they write out of bounds or into the next gridfunction; collapsed loops race; the MoL SIMD loop's braces do not balance | C56_all_points_out_of_bounds_refuted, C56_all_points_overwrite_refuted, C56_collapse_race_refuted, C56_mixed_read_out_of_bounds_refuted, C56_mol_braces_refuted |
| C57 | A value depending on all three coordinates is accepted as two-dimensional; its loop reads an undeclared xx2 | C57_three_refuted |
| C58 | SinhSymTP's Cart_to_xx[0] lacks the asinh; the v2n systems have no inverse map; the wedges' xxSph belong to unrotated axes; unknown names with "Cartesian" or "Wedge" fail with another exception | C58_sinhsymtp_refuted, C58_v2n_no_inverse_refuted, C58_wedge_spherical_refuted, C58_unknown_refuted |
| C59 | An accepted name that itself contains "_rfm_precompute" cannot be looked up | C59_table_suffix_refuted |
| C60 | g4DD_to_ADM (l.158) reads the shift from g4DD[0][i] instead of g4DD[0][i+1]: flat space comes back with shift (-1, 0, 0) and lapse sqrt 2 | C60_round_trip_refuted |
| C65 | Msquared lowers the index of M^i with gammabarDD, so it is e^{-4 phi} M^i M_i and not M^i M_i | C65_Msquared_refuted |
| C68 | The Frozen branch of BSSN_gauge_RHSs (l.158) overwrites the cached BSSN_quantities[...].BU with 0 instead of B_rhsU: later calls with a second-order shift condition in the same coordinate system lose B^i; the module's test calls Frozen first, so its trusted values have vet_rhsU = 0 for NonAdvectingGammaDriving | C68_history_refuted, C68_after_frozen |
| C70 | kronecker_delta of ConformallyFlat_SourceTerms.py (l.228) is 0 on the diagonal and 1 off it: with momenta the conformal extrinsic curvature is not tracefree (trace 2 div V), every component is off by 2/3 div V (2 delta_ij - 1), and ADD_times_AUU is wrong (45/2 instead of 27/2 at distance 1 from a puncture with unit momentum) | C70_tracefree_refuted, C70_source_refuted |
| C71 | LorentzBoost with velocity zero divides 0 by 0 instead of giving the identity; the module's own test of boosted covectors calls boost_vectorU | C71_identity_refuted |
| C72 | rotate with a zero axis gives nan components instead of an exception | C72_zero_axis_refuted |
| C73 | The coordinate bounds are documented as 1.0 or 0.0: each is 0/0 at distance TINYDOUBLE from the bound, the weak ones are 1 up to that distance, and the strict ones are never 1 | C73_step_refuted |
| C74 | For a pressureless fluid at rest both signal speeds are 0 and HLL_solver divides by 0 | C74_divisor_refuted |
| C77 | assert_equal zips the two result dictionaries by position: dictionaries with different names, or of which one is shorter or empty, pass; a nan passes against every value, also in compare_against_trusted; a list under `a` and an expression under `a_0` are stored under one name and only the latter is compared; an exact value of 10^-50 is zero for check_zero | C77_assert_equal_names_refuted, C77_assert_equal_other_names_refuted, C77_nan_refuted, C77_collision_refuted, C77_tiny_refuted |
| C81 | The inner switches of spin_weight_minus2_sph_harmonics have no break: for l < \|m\| <= max control falls through to the case of degree \|m\| and Y(-2,\|m\|,m) is stored, where the error message says that only m in [-l,l] is defined | C81_bounds_refuted |
| C83 | TOVola extends the table of the mass to negative radius with parity +1 although the mass is odd in the radius (M grows as r^3); the extended table is not the mass function at the extended radii | C83_mass_parity_refuted |
| C83 | TOVola_TOV_interpolate_1D reads before the start of the arrays when the table has fewer radii than the stencil; no check guards it (the 22 radii after extension make it unreachable for stencils up to 22) | C83_small_table_refuted |
| C84 | The statements for steerable parameters are inside the loop over the lines and are jumped over for unknown names: with an empty file, or one with unknown names only, the arguments on the command line are dropped silently | C84_override_refuted |
| C84 | A bool commondata parameter is written to the default parameter file but has no entry in the table, so its line is ignored; as a steerable parameter it calls read_boolean, which is never generated, so the C code does not compile | C84_bool_refuted, C84_bool_steer |
| C84 | The default parameter file of REAL[30] has a value of more than 127 characters, and the generated reader exits on it; the default of a char array with an equals sign is cut there | C84_default_refuted |
| C84 | read_integer checks errno only, so 4294967297 is read as 1 on a machine with 64-bit long | C84_integer_range_refuted |
| C84 | parse_param copies the text between brackets to a buffer of 16 characters without a check, and read_chararray copies a quoted argument to one of 128 characters; longer ones write outside the buffers | C84_overflow_refuted |
| C84 | An argument of the command line for an array parameter (or one that is not in the parameter file) is counted and then dropped without a message | C84_array_argument_refuted |
| C86 | schedule.ccl: the header of the remaining bins is repeated for every entry, each time with the same step number | C86_headers_refuted |
| C86 | The schedule goes by ET_thorn_name and the list of sources by subdirectory, and nothing ties the two: a function registered with the default subdirectory is scheduled in a thorn that does not compile it | C86_compiled_refuted |
| C86 | make.code.defn of a thorn without functions ends with a continued line | C86_empty_refuted |
| C88 | ETLegacy's interface.ccl declares the AUX gridfunctions only in evolution thorns, and the AUXEVOL gridfunctions only if there are evolved ones; otherwise they are registered but not declared | C88_legacy_refuted |

## 5. Theorem index and assumptions

What `Print Assumptions` answers for every theorem claimed in `MANIFEST.json`: "closed" means *Closed under the global context*;
otherwise the axioms of the standard library's real numbers that it lists: FD = `ClassicalDedekindReals.sig_forall_dec`,
ND = `ClassicalDedekindReals.sig_not_dec`, FE = `FunctionalExtensionality.functional_extensionality_dep`,
CL = `Classical_Prop.classic`.  No other axiom is used anywhere.

| Property | File | Theorems |
|---|---|---|
| C01 | PropParams.v | C01_first_registration_wins, C01_existing_entries_kept, C01_invalid_raises_and_is_noop |
| C02 | PropParams.v | C02_history_refines_cells, C02_set_then_get, C02_errors_exactly_when_missing, C02_module_prefix_ignored_by_get, C02_setter_accepts_prefix_refuted, C02_colon_name_unreadable_refuted |
| C03 | PropParams.v | C03_registry_wellformed, C03_adjust, C03_adjust_to_unset_refuted |
| C04 | PropParams.v | C04_bad_shape, C04_bulk_is_one_by_one_when_fresh, C04_bulk_result, C04_bulk_equals_single_refuted, C04_all_or_nothing_refuted, C04_single |
| C05 | PropGrid.v | C05_registry_entries_valid, C05_entries_never_change, C05_keys_unique, C05_key_names, C05_ETLegacy_group_refuted, C05_tensor_basename_refuted, C05_new_entries_recorded |
| C06 | PropGrid.v | C06_lists_partition_sorted |
| C07 | PropGrid.v | C07_defines_number_each_group, C07_case_aliasing_refuted |
| C08 | PropGrid.v | C08_parity_types, C08_parity_distinguishes, C08_one_entry_per_name, C08_unsupported_refused, C08_vector_dim4_refuted |
| C09 | PropGrid.v | C09_rank1, C09_rank2, C09_rankN, C09_names_injective, C09_rank1_dim4_refuted, C09_antisymmetric_refuted, C09_dim12_name_clash_refuted, C09_rank2_dim0_refuted |
| C10 | PropFD.v | C10_first_derivatives_exact, C10_second_derivatives_exact |
| C11 | PropFD.v | C11_inverse_two_sided_no_swaps |
| C12 | PropFD.v | C12_KO_closed_form, C12_KO_annihilates, C12_KO_damps_checkerboard, C14_KO_support |
| C13 | PropFD.v | C13_up_down_mirror, C13_second_derivative_even |
| C14 | PropFD.v | C14_first_derivative_support, C14_second_derivative_support, C14_KO_support, C14_mixed_support |
| C15 | PropFD.v | C15_mixed_is_composition, C15_mixed_exact |
| C16 | PropFD.v | C16_matrix_independent_of_history, C16_operator_independent_of_history |
| C17 | PropFDRead.v | C17_parse_recovers, C17_parse_rejects, C17_no_confusion, C17_lists, C17_base_with_UD_refuted |
| C17 | PropTexts.v | C17_no_underscore |
| C18 | PropFDRead.v | C18_reads_exact, C18_reads_in_memory_order, C18_names_injective, C18_access_text, C18_name_clash_refuted, C18_order_refuted |
| C19 | PropIndexedExp.v | C19_declared_symmetry_holds, C19_nosym_keeps_every_entry, C19_overlapping_pairs_refuted |
| C20 | PropIndexedExp.v | C20_matrix_inverters |
| C21 | PropIndexedExp.v | C21_levi_civita_symbol, C21_levi_civita_contraction |
| C22 | PropParallel.v | C22_schedule, C22_sequential, C22_same, C22_register, C22_keys_injective, C22_calls_kept, C22_same_name_refuted, C22_changed_entry_refuted, C22_shared_module_refuted |
| C23 | PropCacheFS.v | C23_last_write, C23_never_written, C23_simplify, C23_crash_refuted, C23_simplify_crash_refuted, C23_unpicklable_result_refuted |
| C24 | PropCacheFS.v | C24_holds, C24_untouched, C24_repeat, C24_raise_refuted, C24_blank_refuted, C24_carriage_return_refuted, C24_line_ends, C24_strip |
| C25 | PropFunctional.v | C25_uniq, C25_flatten, C25_flatten_mixed, C25_repeat, C25_pipe, C25_reduce, C25_product, C25_product_repeat, C25_product_refuted, C25_product_repeat_ignored_refuted, C25_repeat_negative_refuted |
| C26 | PropFunctional.v | C26_text_plain, C26_text_tiled, C26_plain_visits, C26_range, C26_tiled_visits, C26_visits_once, C26_braces, C26_lengths_checked |
| C27 | PropExprTree.v | C27_round_trip, C27_rebuild, C27_traversals, C27_nodes, C27_edit, C27_edited_tree |
| C28 | PropSimd.v | C28_value, C28_value_tables, C28_table, C28_symbols, C28_declared, C28_clean, C28_equal_terms_refuted, C28_undeclared_one_refuted |
| C29 | PropCse.v | C29_value, C29_total, C29_cse |
| C30 | PropCse.v | C30_value, C30_declared, C30_substitute, C30_substitute_neg, C30_fractional_power_refuted, C30_undeclared_one_refuted |
| C31 | PropCFunction.v | C31_step, C31_accepts, C31_history, C31_stable, C31_lookup_stable, C31_count, C31_qualified_injective, C31_qualified_injective_refuted |
| C32 | PropMoL.v | C32_step, C32_adaptive_refused, C32_builtin, C32_builtin_names, C32_time, C32_zero_subdiagonal_refuted, C32_zero_last_weight_refuted, C32_one_stage_refuted, C32_euler_weight_refuted, C32_rk3_post_refuted |
| C33 | PropButcher.v | C33_explicit, C33_row_sums, C33_order, C33_weights_sum, C33_linear, C33_quadrature, C33_dp8_refuted |
| C33 | PropButcherNear.v | C33_near |
| C34 | PropAB.v | C34_rows, C34_exact, C34_size, C34_order1_refuted |
| C35 | PropChare.v | C35_no_overrun, C35_checks, C35_owned_once, C35_owner, C35_reverse, C35_inverse, C35_interior |
| C36 | PropBCs.v | C36_cover, C36_malloc, C36_no_race, C36_fill, C36_schedule, C36_in_bounds, C36_exact, C36_thin_grid_refuted |
| C37 | PropBCs.v | C37_copies, C37_schedule, C37_idempotent, C37_table, C37_whole, C37_chained_sources_refuted |
| C38 | PropCheckpoint.v | C38_round_trip, C38_no_file, C38_write_keeps, C38_due, C38_crash_outcomes, C38_truncated, C38_crash_refuted, C38_due_midway_refuted |
| C39 | PropMoL.v | C39_malloc_free, C39_no_double, C39_used, C39_pointers, C39_struct, C39_pointers_refuted |
| C40 | PropRegistry.v | C40_once, C40_call, C40_kept, C40_struct_once_only |
| C40 | PropRegistryText.v | C40_struct_fields |
| C41 | PropKernel.v | C41_generates, C41_kernel_value, C41_kernel_runs, C41_polynomial_data, C41_control_vector_read_refuted, C41_no_control_vector_refuted, C41_explicit_downwind_refuted, C41_both_winds_refuted, C41_stale_functions_raise_refuted, C41_stale_functions_wrong_refuted |
| C42 | PropCPow.v | C42_power_printing (CL+FD+FE+ND), C42_abs_printing (CL+FD+FE+ND), C42_power_laws (CL+FD+FE+ND), C42_tables_agree_but_sixths, C42_sixths_differ, C42_cbrt_negative_refuted (CL+FD+FE+ND) |
| C43 | PropPlanes.v | C43_xy_plane (FD+FE), C43_yz_plane (FD+FE+ND), C43_points_interior, C43_accepted, C43_azimuth_error (FD+FE+ND), C43_targets_on_plane (FD+FE+ND), C43_plane_only_there (FD+FE+ND), C43_y_axis (FD+FE+ND), C43_z_axis (FD+FE), C43_single_cell_ghost_refuted, C43_odd_azimuth_refuted (FD+FE+ND), C43_wedge_xy_refuted (FD+FE+ND), C43_no_points_stores_refuted |
| C44 | PropIndexedExp.v | C44_exactly_derivatives_across_axes, C44_names_without_derivative_kept, C44_plain_component_zeroed_refuted, C44_order_misjudged_refuted |
| C45 | PropFDRead.v | C45_extracted_symbols, C45_downwind_partner, C45_upwind_duplicates_refuted, C45_derivatives_extracted |
| C46 | PropCFunction.v | C46_root, C46_depth, C46_outside_refuted, C46_header_found, C46_includes |
| C47 | PropCFunction.v | C47_comment, C47_placed |
| C47 | PropTexts.v | C47_lines |
| C48 | PropCFunction.v | C48_prototype, C48_semicolon_refuted, C48_contents |
| C49 | PropGeneric.v | C49_transparent, C49_one_style, C49_transparent_refuted |
| C50 | PropGeneric.v | C50_step, C50_trusted_kept, C50_regression, C50_carriage_return_refuted, C50_shared_file_refuted |
| C51 | PropChare.v | C51_coordinates_agree, C51_xxmin, C51_tiling, C51_xxmax, C51_xxmax_refuted, C51_invdxx, C51_cell_centred |
| C52 | PropChare.v | C52_exchange, C52_others_kept, C52_in_bounds |
| C53 | PropRegistry.v | C53_order_free, C53_comments_irrelevant, C53_each_once, C53_header, C53_complete, C53_griddata_order_refuted, C53_extra_clash_refuted |
| C53 | PropRegistryText.v | C53_macros, C53_no_macros, C53_section_order, C53_struct_fields, C53_supplemental |
| C53 | PropTexts.v | C53_guard |
| C54 | PropCodeParams.v | C54_defaults, C54_emitted_order, C54_raises, C54_locals, C54_end_to_end, C54_simd, C54_lowercase_refuted, C54_format_refuted, C54_simd_clash_refuted |
| C54 | PropRegistryText.v | C54_local_code, C54_default_code |
| C54 | PropTexts.v | C54_plain |
| C55 | PropIntrinsics.v | C55_macros, C55_cuda_macros, C55_defined, C55_vector_type, C55_kernel, C55_compiles, C55_load_store, C55_horizontal_sum, C55_abs, C55_upwind, C55_sse2_fma_refuted, C55_unfused_overflow_refuted, C55_undefined_macros_refuted |
| C56 | PropSimdLoop.v | C56_accepts, C56_text, C56_text_ETLegacy, C56_visits, C56_points, C56_spill, C56_serial, C56_parallel, C56_tasks, C56_interior, C56_all_points, C56_in_bounds, C56_stencil_reads, C56_row_reads, C56_mol, C56_carpetx, C56_all_points_out_of_bounds_refuted, C56_all_points_overwrite_refuted, C56_collapse_race_refuted, C56_mixed_read_out_of_bounds_refuted, C56_mol_braces_refuted |
| C56 | PropTexts.v | C56_mol_text |
| C57 | PropRfmPrecompute.v | C57_outcome, C57_same_arrays, C57_read_once, C57_in_scope, C57_values, C57_vector_inner, C57_vector_outer, C57_free, C57_three_refuted, C57_registered, C57_twice, C57_struct, C57_text |
| C58 | PropRefMetric.v | C58_orthogonal (CL+FD+FE+ND), C58_jacobian (CL+FD+FE+ND), C58_jacobian_spherical (CL+FD+FE+ND), C58_metric (CL+FD+FE+ND), C58_connection (CL+FD+FE+ND), C58_derivatives (CL+FD+FE+ND), C58_inverse (CL+FD+FE+ND), C58_sinhsymtp_refuted (CL+FD+FE+ND), C58_v2n_no_inverse_refuted (CL+FD+FE+ND), C58_spherical (CL+FD+FE+ND), C58_wedge_spherical_refuted (CL+FD+FE+ND), C58_extent (CL+FD+FE+ND), C58_accepts (CL+FD+FE+ND), C58_refuses (CL+FD+FE+ND), C58_unknown_refuted |
| C58 | PropTexts.v | C58_int |
| C59 | PropRefMetricPre.v | C59_accepts (CL+FD+FE+ND), C59_values (CL+FD+FE+ND), C59_symbols, C59_registered, C59_derivatives (CL+FD+FE+ND), C59_arrays, C59_table, C59_table_suffix_refuted (CL+FD+FE+ND) |
| C60 | PropGRMetric.v | C60_line_element, C60_accepts, C60_inverse, C60_inverse_given, C60_determinant, C60_metric_back, C60_shift_back, C60_shift_exact, C60_round_trip_refuted |
| C61 | PropBSSNConv.v | C61_conformal (CL+FD+FE+ND), C61_there_and_back (CL+FD+FE+ND), C61_back_and_there (CL+FD+FE+ND), C61_errors (CL+FD+FE+ND) |
| C62 | PropBSSNDeriv.v | C62_tensors (CL+FD+FE+ND), C62_hatted (CL+FD+FE+ND), C62_phi (CL+FD+FE+ND), C62_adm (CL+FD+FE+ND), C62_connection (CL+FD+FE+ND), C62_shift (CL+FD+FE+ND) |
| C63 | PropBSSNRicci.v | C63_general (CL+FD+FE+ND), C63_ricci (CL+FD+FE+ND), C63_symmetric (CL+FD+FE+ND) |
| C64 | PropBSSNEvol.v | C64_determinant (CL+FD+FE+ND), C64_trace (CL+FD+FE+ND), C64_symmetric (CL+FD+FE+ND), C64_metric (CL+FD+FE+ND) |
| C65 | PropBSSNAdm.v | C65_mean (CL+FD+FE+ND), C65_hamiltonian (CL+FD+FE+ND), C65_momentum (CL+FD+FE+ND), C65_Msquared (CL+FD+FE+ND), C65_extrinsic (CL+FD+FE+ND), C65_Msquared_refuted (CL+FD+FE+ND) |
| C66 | PropBSSNLam.v | C66_Lambdabar (CL+FD+FE+ND), C66_constraint (CL+FD+FE+ND) |
| C67 | PropT4munu.v | C67_projections (FD+FE), C67_decomposition (FD+FE), C67_extrinsic (CL+FD+FE+ND), C67_hamiltonian (CL+FD+FE+ND), C67_momentum (CL+FD+FE+ND), C67_Lambdabar (CL+FD+FE+ND), C67_trace (CL+FD+FE+ND), C67_symmetric (CL+FD+FE+ND) |
| C68 | PropBSSNGauge.v | C68_second_order (CL+FD+FE+ND), C68_first_order (CL+FD+FE+ND), C68_other_shifts (CL+FD+FE+ND), C68_lapse (CL+FD+FE+ND), C68_harmonic (CL+FD+FE+ND), C68_refused (FD+FE+ND), C68_history (FD+FE+ND), C68_after_frozen (FD+FE+ND), C68_history_refuted (FD+FE+ND) |
| C69 | PropWaveEquation.v | C69_exact (CL+FD+FE+ND), C69_laplacian (CL+FD+FE+ND), C69_exact_curvilinear (CL+FD+FE+ND), C69_origin (CL+FD+FE+ND), C69_positive (CL+FD+FE+ND), C69_refused |
| C70 | PropNRPyElliptic.v | C70_curvature (CL+FD+FE+ND), C70_trace (CL+FD+FE+ND), C70_spin (CL+FD+FE+ND), C70_source (CL+FD+FE+ND), C70_background (CL+FD+FE+ND), C70_hamiltonian (CL+FD+FE+ND), C70_fixed_points (CL+FD+FE+ND), C70_tracefree_refuted (CL+FD+FE+ND), C70_source_refuted (CL+FD+FE+ND) |
| C71 | PropLorentzBoost.v | C71_defined (FD+FE+ND), C71_identity_refuted (FD+FE+ND), C71_lorentz (FD+FE+ND), C71_roundtrip (FD+FE+ND), C71_rest_frame (FD+FE+ND), C71_along_x (FD+FE+ND), C71_pairings (FD+FE+ND) |
| C72 | PropTensorRotation.v | C72_vector (FD+FE+ND), C72_matrix (FD+FE+ND), C72_rotation (FD+FE+ND), C72_invariants (FD+FE+ND), C72_compose (FD+FE+ND), C72_errors (FD+FE+ND), C72_zero_axis_refuted (FD+FE+ND), C72_exceptions (FD+FE+ND) |
| C73 | PropPiecewise.v | C73_minimum (FD+FE), C73_weak_bounds (FD+FE), C73_strict_bounds (FD+FE), C73_step_refuted (FD+FE) |
| C74 | PropHLL.v | C74_sound_speeds (FD+FE+ND), C74_signal_speeds (FD+FE+ND), C74_solver (FD+FE), C74_consistency (FD+FE+ND), C74_divisor_refuted (FD+FE+ND) |
| C75 | PropGRHD.v | C75_momentum (FD+FE), C75_continuity (FD+FE), C75_energy (FD+FE), C75_fluid (FD+FE), C75_conserved (FD+FE), C75_volume (CL+FD+FE+ND) |
| C76 | PropJacobians.v | C76_roundtrip (CL+FD+FE+ND), C76_contractions (CL+FD+FE+ND), C76_basis (CL+FD+FE+ND), C76_metric (CL+FD+FE+ND) |
| C77 | PropValidateExpr.v | C77_values (FD+FE+ND), C77_zero (FD+FE+ND), C77_assert_equal (FD+FE+ND), C77_trusted (FD+FE+ND), C77_regression (FD+FE+ND), C77_assert_equal_names_refuted (FD+FE+ND), C77_assert_equal_other_names_refuted (FD+FE+ND), C77_nan_refuted (FD+FE+ND), C77_collision_refuted (FD+FE+ND), C77_tiny_refuted (FD+FE+ND) |
| C78 | PropInitialData.v | C78_trumpet_stationary (CL+FD+FE+ND), C78_trumpet_schwarzschild (CL+FD+FE+ND), C78_trumpet_vacuum (CL+FD+FE+ND) |
| C78 | PropInitialKerr.v | C78_kerr_schild_stationary (CL+FD+FE+ND), C78_kerr_schild (CL+FD+FE+ND) |
| C78 | PropInitialUIUC.v | C78_uiuc_stationary (CL+FD+FE+ND), C78_uiuc_kerr (CL+FD+FE+ND) |
| C78 | PropInitialBL.v | C78_brill_lindquist_vacuum (CL+FD+FE+ND), C78_standard_gauge (CL+FD+FE+ND), C78_brill_lindquist_lapse (CL+FD+FE+ND), C78_gauge_names (CL+FD+FE+ND) |
| C79 | PropPsi4Tetrad.v | C79_triad (FD+FE+ND), C79_null_coordinate (FD+FE+ND), C79_null_normal (FD+FE+ND), C79_default_lapse (FD+FE+ND), C79_refused |
| C80 | PropPsi4.v | C80_riemann (FD+FE), C80_psi4 (FD+FE), C80_spin (FD+FE+ND), C80_arrays |
| C81 | PropSpinHarmonics.v | C81_raise (CL+FD+FE+ND), C81_lower (CL+FD+FE+ND), C81_raise_m (CL+FD+FE+ND), C81_top (CL+FD+FE+ND), C81_orthonormal (CL+FD+FE+ND), C81_orthogonal_m (CL+FD+FE+ND), C81_dispatch (FD+FE+ND), C81_outside (FD+FE+ND), C81_bounds_refuted (CL+FD+FE+ND) |
| C82 | PropTOV.v | C82_einstein (FD+FE+ND), C82_hydrostatic (FD+FE+ND), C82_isotropic (FD+FE+ND), C82_exterior (CL+FD+FE+ND) |
| C83 | PropTovola.v | C83_memory, C83_extension (FD+FE), C83_mass_parity_refuted (FD+FE), C83_surface (CL+FD+FE+ND), C83_exterior (FD+FE), C83_nearest (FD+FE), C83_interpolation (FD+FE), C83_small_table_refuted (FD+FE), C83_tensor (FD+FE+ND), C83_polytrope (CL+FD+FE+ND), C83_equilibrium (CL+FD+FE+ND), C83_parities (FD+FE) |
| C84 | PropParfileDefault.v | C84_table |
| C84 | PropParfile.v | C84_reads, C84_duplicate, C84_characters |
| C84 | PropParfileLimits.v | C84_default, C84_integer, C84_overflow, C84_usage, C84_bool_steer, C84_integer_range_refuted, C84_overflow_refuted, C84_override_refuted, C84_bool_refuted, C84_default_refuted, C84_steer, C84_compiles, C84_array_argument_refuted |
| C85 | PropTPCoord.v | C85_AB (CL+FD+FE+ND), C85_C (FD+FE+ND), C85_rx3 (FD+FE+ND), C85_all (CL+FD+FE+ND), C85_interior (CL+FD+FE+ND), C85_distance (FD+FE+ND) |
| C86 | PropSchedule.v | C86_schedule, C86_fails, C86_once, C86_bins, C86_headers_refuted, C86_sources, C86_files, C86_compiled, C86_compiled_refuted, C86_empty_refuted |
| C87 | PropParamCCL.v | C87_declares, C87_unregistered, C87_order |
| C88 | PropInterface.v | C88_declared, C88_legacy, C88_legacy_refuted, C88_rhs, C88_parities |

Theorems without a parenthesis are closed.
