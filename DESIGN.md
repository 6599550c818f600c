# Design of the formal model

The code base (`/repo/source`) is a C++ implementation of the Keldysh multiloop fRG
and parquet equations for the Anderson impurity model. The model is a set of small total
Gallina functions, one per C++ function, in `rocq/theories`.

## Layout of `rocq/theories`

For every area `X` there are these files (`Prelude.v` and `Cplx.v` are shared):

* `X_Model.v`  – Gallina transcription of the C++ functions. Every definition cites file and lines.
* `X_Spec.v`   – the small specifications the theorems are stated against. They do not use the
  helpers of the model.
* `X_Proofs.v` (`X_Proofs2.v`, …) – lemmas.
* `X_Props.v`  – mostly `Theorem … exact lemma. Qed.`, refutation witnesses, `Example`s showing that the hypotheses are
  satisfiable by a non-trivial case, and `Print Assumptions`.

A theorem named `…_refuted` exhibits a witness on which the code, as modelled, violates the property.
A theorem named `…_partial` proves only a part of its property.

## Trusted base

* The Coq 8.16.1 kernel (`vm_compute` included), the standard library.
* The axioms printed by `Print Assumptions` under each theorem in `X_Props.v`. Integer, list and
  rational theorems are closed under the global context. Theorems about real numbers use the
  standard library's axioms of the reals (`ClassicalDedekindReals.sig_forall_dec`,
  `ClassicalDedekindReals.sig_not_dec`, `FunctionalExtensionality.functional_extensionality_dep`) and, for
  some lemmas of the standard library's real analysis, `Classical_Prop.classic`. No other axiom is used.
* The reading of the C++ sources: the code is not executed; every definition cites its lines.

## Global modelling decisions

* `int`/`size_t` are `Z` (or `nat` for list positions). In index arithmetic `size_t` wraps around
  modulo 2^64; elsewhere overflow is not modelled.
* `double` is modelled by exact rationals `Q` or reals `R`; rounding is not modelled. Where the
  behaviour on NaN decides control flow (step control, convergence tests, bisection) the model
  uses a number type with a separate NaN value and IEEE comparison (every comparison with NaN is false).
* `comp` is a pair of rationals (`Cplx.v`) or of reals with the usual field operations.
* Reads outside an array, failed asserts and thrown exceptions are explicit outcomes
  (`None`/error constructors), never a default value.
* Loops without a syntactic bound are modelled with fuel; running out of fuel is a separate
  outcome, and theorems either prove that enough fuel exists or quantify over terminating runs.
* Compile-time switches (`KELDYSH_FORMALISM`, `ZERO_TEMP`, `DEBUG_SYMMETRIES`, `CONTOUR_BASIS`, `REG`, …)
  become parameters of the model where both branches are modelled; otherwise the default
  configuration of `parameters/master_parameters.hpp` is used and this is said at the definition.
* OpenMP loops: modelled as a sequence of independent updates in an arbitrary order where the
  property is about order; data races are otherwise not modelled. MPI: `Allgather` is modelled by
  concatenation of the ranks' buffers.
* HDF5: a file is a finite map from layer to state plus attributes; API errors are an error outcome.

## Properties

| id | modelled code | method |
|----|---------------|--------|
| C01 | `getFlatSize`, `getFlatIndex`, `getMultIndex` | induction on the dimension list, mixed radix arithmetic |
| C02 | one-dimensional `getFlatIndex` | witness (the specialisation returns the length) |
| C03 | permuted `getFlatIndex`, `permuteCyclic`, `get_inverse_permutation` | lists and permutations |
| C04 | `rotateFlatIndex`, `getMultIndexSkippingOneDimension` | refinement to rotation of tuples, C01 |
| C05 | multiarray `flat_index`, `at`, element write | refinement to a finite map |
| C06 | `BlockView`, `get_values` | mixed radix arithmetic on windows |
| C07 | `multiarray::swap` | witness with different lengths; correct part for equal shapes |
| C08 | `collapse`, `maxabs` | fold over fibres |
| C09 | multiarray `partial_deriv` | witness: two arrays differing only in another row |
| C10 | `get_finite_differences` | field identities over Q/R for all grids |
| C11 | `vec` operators | lists, error outcome |
| C12 | `vec*comp`, `myimag` | witnesses |
| C13, C14 | `alphas`, `indices_sum`, `rotate_Keldysh_matrix` | complete enumeration of the 16 indices × channels |
| C15, C16 | `Bubble::value`, `value_vectorized` | ring identities over complex numbers, derivative by dual numbers |
| C17, C18 | `symmetry_transformations.hpp` (T1, T2, T3, TC, Tph, TR, Ti; all formalisms, SBE flag, contour flag) | case analysis + linear arithmetic over Q, parity of Matsubara frequencies; effect on the four legs |
| C19, C20 | `symmetry_table.hpp` (component, spin and frequency tables), `enforce_freqsymmetriesK1/K2/K3`, `get_trafo` of the bubble | complete enumeration of the tables against causality and orbits; sector reduction by linear arithmetic; loop invariant for arbitrary iteration order |
| C21–C23 | `transfToR` | linear arithmetic over Q, parity; witness for the a←legs conversion and proof that it fails for all transfers except 0 and 2 |
| C24, C77 | `value`, `left_same_bare` … of `rvert` and `fullvert`, template arguments chosen by `GeneralVertex` | case analysis on truncation and symmetry type, ring identities; witness for the uninitialised part |
| C25, C26 | `mpi_*`, task distribution in `bubble_function` | arithmetic of div/mod, lists; witness for several internal indices |
| C27 | `math_utils.c++` rounding | `lia` with div/mod |
| C28 | `switch2bosonicFreqs`, `switch2naturalFreqs` | linear arithmetic |
| C29 | `locate` | loop invariant |
| C30–C34, C79, C80 | `frequency_grid.{hpp,c++}`: transformations v1–v4 and linear, `eliasGrid`, `hybridGrid`, index look-up, box test, setters | over R: odd increasing inverse pairs, field identities, index correction; general refutations (upper end, shifted centre, constant boundary 25). The angular grid is not modelled |
| C78 | `integration_measure_v1`–`v4` | derivatives over R |
| C35, C81, C82 | `add_points_to_Lambda_grid`, `construct_flow_grid`, `flow_grid_step_sizes`, `get_Lambda_checkpoints` | induction on lists, sortedness and permutations over R; general refutations |
| C36 | parametrisation classes, substitutions | inverse pairs and derivatives over R |
| C37, C38 | Butcher tableaux, `rk_step` | order conditions by enumeration of all rooted trees (proved complete) and computation over Q, sharpness; exactness for all polynomials and all steps, stability polynomial; states are arbitrary families of rationals |
| C39–C42, C83–C86 | `rkqs`, `ode_solver`, `integrate_adaptive_check`, restart step | over R with a separate NaN; invariants over arbitrary error estimates and arbitrary monotone parametrisations (instances for linear, square root, exponential); general refutations and witnesses. Boost's stepper is an arbitrary oracle; its comparison tolerance of one ulp is dropped. `integrate_nonadaptive` and `ODE_solver_RK4` call a function with a missing argument and are not modelled |
| C43, C44, C46, C87, C89 | `get_weights`, `interpolate`, `is_in_box`, `interpolate_lin*`, `interpolate_sloppycubic*`, dense-grid tails, `SelfEnergy::valsmooth`, operators, `initialize` | over R; the interpolated value is an explicit multilinear form of stored elements (row-major spec of the array), from which bounds, exactness and face agreement follow; general refutations at the box edges. GRID 2 (rotated K2/K3 frequencies) not modelled; a complex buffer is two real ones |
| C45 | `InterpolatorSpline1D/2D/3D`: matrices, coefficients, weights | over R; the 16x16 and 64x64 matrices are taken over literally and shown to give nested one-dimensional Hermite interpolation; slopes are true derivatives (`derivable_pt_lim`). Filling of the derivative arrays not modelled: it does not compile |
| C47, C48, C88, C90–C92 | operators, `abs` and norms of `State`, `GeneralVertex`, `fullvert`, `rvert`, `SelfEnergy`, `dataBuffer` | over R; a spec names every stored number (`entry`), operations are proved or refuted number by number; the laws are equalities of whole states; evaluation is linear because the elements read by `get_values` commute with maps. Caches (`*_symmetry_expanded`) and configuration left out |
| C49 | `anderson_update` | over R, states as in C47; the matrix inversion (Eigen) is a parameter with the spec `inverts`; normal equations, minimality by completing the square; singular matrices for repeated steps |
| C50, C51, C93 | bracketing phase of `minimizer` | over R, cost functions may be undefined; invariant of the triple, attained minimum on a compact interval, explicit cycle. The GSL minimiser behind it is not modelled |
| C52, C94 | `parquet_solver` loop, `check_convergence_hdf` | over Q with separate infinities and NaN; the iteration of the equations and the norms are arbitrary functions |
| C53, C95 | `compute_Hartree_term_bracketing`, `compute_Hartree_term` | over R, the integral for the filling is an arbitrary function, possibly NaN; invariant of the interval, IVT, explicit bound; two-cycle. The Friedel variant is not modelled |
| C54–C56, C96, C97 | `Adapt`, `Adapt_semiInfinit*` | over R; exactness by field identities modulo the squares of the nodes, moments of the 13-point rule by rational arithmetic; induction over recursion trees; explicit depth for bounded integrands; general refutations |
| C57, C98, C99 | `integrator` with features, `integrator_Matsubara_T0`, `matsubarasum`, `matsubarasum_vectorized` | over R; integration on one interval is a parameter given by differences of a primitive; sorted lists, closed form of the interval list; matrices with unset entries filled block by block; witnesses |
| C58–C61, C100, C101 | Gf_Model: distribution functions, every `G*`, `S*`, `Katanin*` of propagator.hpp for regulators 2–5 and both formalisms, `valsmooth(_vectorized)`, rotation of integrandSE; complex numbers as pairs of reals, division by zero = None, compile-time switches as a record | over R: derivatives with Coq's `derivable_pt_lim` (C58), complex field identities (C59, C61, C101), sign of the imaginary part (C60), tanh calculus (C100). Refutations with explicit values. The self-energy is an arbitrary function of component and frequency; the free-propagator constructor (dangling references) and the 1-argument declaration of `Fermi_distribution` are not modelled |
| C62–C64, C102 | `Hdf_*`: `write_state_to_hdf_LambdaLayer`, `write_state_to_hdf`, `add_state_to_hdf`, `read_state_from_hdf`, `read_config_from_hdf`, `check_convergence_hdf`, `write_mfRG_stats`, both `n_loop_flow` overloads and the saving of `parquet_solver` as lists of elementary HDF5 operations (layer, attribute, group) on a file; exceptions by class as in the HDF5 C++ API; data of members and grids abstract, names of data sets and groups as in the code | proved: invariant of complete files over all histories; crash consistency by prefixes of the operation list. Not modelled: partial writes inside one HDF5 call, MPI ranks other than 0 |
| C65, C66, C104 | `Mlp_*`: `write_out_results_K*`, `bubble_function`, `vertexInSOPT/TOPT/FOPT`, overloads of `sopt_state`, `rhs_n_loop_flow` with `calculate_dGammaL/R/C`, multiloop loop and self-energy iteration with tolerances | data of one diagrammatic class, bubbles, self-energies, norms and mixing are arbitrary types and functions; vertices as records of classes; the multiloop sum is stated in Mlp_Spec as a recursion over orders; induction over calls and iterations; witnesses over Z. Not modelled: SBE decomposition, SELF_ENERGY_FLOW_CORRECTIONS 2 |
| C103, C105–C107 | `Lop_*`: `IntegrandSE` (both summation orders, scalar and vectorised, Keldysh and contour basis, Matsubara), `LoopCalculator`, `loop`, `selfEnergyInSOPT`, `topt_state`, `compute_SDE` | the spec labels legs with spin, Keldysh index and frequency (`closed`, `contraction`); the integral is any functional that is linear and invariant under reflection (and antilinear under conjugation because of the imaginary prefactor where the retarded component is obtained by conjugation); the change of basis by orthogonality of the rotation on each leg. Witnesses over Q. Not modelled: SWITCH_SUM_N_INTEGRAL 0 with version 1, common step-size control of a vector-valued integrand |
| C67 | bubble leg frequencies | linear/integer arithmetic |
| C68 | `generate_filename`, `generate_data_directory`, the job string of main.cpp, file names of flow.c++, run_parquet and the PT2 run as strings; to_string(double) as six decimals, ties to even; the choice of the starting state in flow.c++ | names are read back field by field (a number ends at the first character that is not part of a number), so equality of names is shown equivalent to equality of printed parameters; witnesses for the refutations are quantified over all configurations. Not modelled: negative zero, diagnostic files |
| C108, C109 | `Fdt_Model`: `compute_components_through_FDTs` for K1, K2, K3 and the three channels, the slice formulas of postprocessing.c++, loops over spins, `check_SE_causality`, `check_FDTs_selfenergy`, `check_FDTs_K1`; values at one grid point as a function of the Keldysh component | `Fdt_Spec`: contour functions with the Kubo–Martin–Schwinger condition and causality for any grouping of the four legs, Keldysh components by rotation of every group; no formula of the program enters. `Fdt_Alg` eliminates the dependent contour components and leaves rational identities in the weights (`field`). Examples give functions in equilibrium with components that do not vanish. Not modelled: interpolation between grid points (`valsmooth`), norms of whole vertices, output |
| C110, C111 | `Post_Model`: loops of the evaluation functions over the layers of a result file (signed/unsigned comparison of the loop variable), vectors they fill, integrand of the integrated Ward identity and the propagators in its right-hand side; a result file is room, last layer and readable states (`Hdf_Model` has the details) | `Post_Spec`: exactly one entry for every number below n; entries of vectors by position. What is computed from one state is an arbitrary function. The integrator in C111 is any functional that depends on the values of the integrand only. Rational arithmetic, no axioms. Not modelled: what the individual evaluations compute (bubbles: see C65, C66), names of the output files. |
| C112 | `Ugr_Model`: `update_grid` on Elias grids with the interpolation of `Interp_Model`; all threads run the same loop, modelled as one pass | statements about stored elements, with the spec of C43 (enclosing cell, corners, multiaffine); real numbers. Refutations: equal grid, internal index |
| C113 | `Tail_Model`: all correction functions for the bubble, their selection, limits of the Matsubara sum; exact real and complex numbers with principal logarithm; the propagators are those of `Gf_Model` with decayed self-energy (`C113_propagator*`) | `Tail_Spec`: improper integrals as limits of antiderivatives, partial sums over Matsubara frequencies. Antiderivatives given explicitly, existence otherwise from the standard library's Riemann integral and monotone limits; strict comparison of integrands for the refutations. Keldysh bubbles: products of `C113_propagator_keldysh`, argument of the product of four factors. Uses `Classical_Prop.classic` beside the axioms of the reals |
| C114 | `Tail_Model`: `SE_Keldysh`, `SE_PHS`, spin factors and hybridisation of `asymp_corrections_loop` | as C113 |
| C115–C117 | `Bse_*`: parts of a vertex left and right of a bubble, `compute_BSE`, vertex part of `parquet_iteration`, `susceptibilities_postprocessing`; on top of `Mlp_Model` (`bubble_function`, `rhs_n_loop_flow`) | a bubble is an abstract operation, linear on both sides and associative (integral, Keldysh and spin sums are exact), reading a channel in another parametrisation a linear map, K2' without DEBUG_SYMMETRIES the image of K2 under a symmetry that reverses products; class-wise spec of the Bethe-Salpeter equations and of their derivative; C117 uses the theorem of C66; example: expansions in the interaction up to fourth order over canonical rationals |
| C118, C119 | `Rd_*`: `symmetry_reduce`, `read_value`, `read_symmetryreduced_rvert`, `valsmooth`, symmetry expansion before a bubble (`symmetry_expand`, `symmetry_expand_spin_upup`), bare vertex (`initialize`, `val`, expanded); tables and `Ti` are those of C18, C19 | interpolation is a given function of the frequencies; the spec is a family of vertices on four labelled legs that obeys crossing and conjugation (`physical`), with the class and the half determined by where a permutation of the legs carries the two pairs of a channel; contour components by the Keldysh rotation. Refutation: conjugation in the contour basis keeps the branches |
| C120 | `Tab_Model.enforce` (C20) on data of a `physical` family that is also `reversible` (particle-hole or imaginary-frequency reversal) and `causal` | every operation of a sector code keeps the value a transformation record stands for (`sector_physical`), then the read rule of C20. Refutation: entries next to the edge of a finite-temperature box are dropped |
| C121 | `Bub_Model`: `Integrand` (parts left and right of the propagator pair by class, symmetry type and spin, matrix product of `Keld_Model`), prefactor and spin sum of `bubble_function`; operands are readers (C118, C119 show that symmetric vertices provide such readers) | `Bub_Spec`: families on four labelled legs as in C118; both sides are rewritten to one diagram on legs, whose index sum is permuted under each operation. The integral is any functional that commutes with sign, conjugation and reflection of the frequency. Keldysh basis; the Matsubara formalism at zero temperature is `Mbu_Model` (`value_Matsubara`, scalar spin sum, prefactor), at finite temperature `Mbt_Model` (also the limits of the frequency sum, the even halves of the transfer frequency and the conversions between channels). At finite temperature the laws are required and proved at odd frequencies only; the reflection is v -> -v - (hi - lo), and `C121_frequency_sum` shows that the limits in the code respect it. The quadrature of the tails is a functional with the same symmetry; ANALYTIC_TAILS are not covered (they read the vertices at one end only) |
| C122 | `Sf_Model`: the abstract bubbles of `Mlp_Model` (multiloop) and `Bse_Model` (parquet) instantiated with numbers: class data are functions of spin, Keldysh index and frequencies, products are those of `Bub_Model`; `Msf_Model` the same for the Matsubara formalism at zero temperature with the bubble of `Mbu_Model`, `Mtf_Model` at finite temperature with the bubble of `Mbt_Model` | vertices that obey the symmetries are closed under sums, halving, left/right bubbles (C121) and the averaging of the central part; induction over loop orders and self-energy iterations |
| C123 | `Fl_Model`: G, S, Katanin extension (Keldysh, equilibrium, regulator 2), `loop` over a vertex of numbers (`Lop_Model`), the one-loop self-energy flow, the multiloop corrections and Anderson mixing with real coefficients, put into the multiloop flow of C122; `Mfl_Model`: the same in the Matsubara formalism with regulators 2, 3, 4, at zero temperature (loop integral: an operation that commutes with sign, conjugation and reflection) and at finite temperature (the sum of the code) | the vertex that the loop sees is written as a function of legs; its conjugation and exchange symmetry are those of C105, reversal turns the contraction into minus its conjugate; induction as in C122 with the property of the self-energy proved instead of assumed; Matsubara: values at a frequency and its negative are tracked as odd or even through the algebra of the propagators, the closed vertex is conjugated by reversal; derivatives with respect to the scale and the self-energy from the resolvent identity, remainders written out for each regulator |
| C124 | `Skp_Model`: the integrand with SWITCH_SUM_N_INTEGRAL 0 and the list of components that are left out for the first class | linearity of the integral and C15 for the sum; for the left-out components case distinction: causal zero of a vertex, or two lines in the same half plane, whose integral vanishes (hypothesis `closes`) |
| C125 | `Sde_Model`: parquet_solver.hpp:85-253, 292-303: bubbles of the bare vertex with the vertex (parts masked as in vertex.hpp), half of left and right, loop over classes K1, K2, K2b of one channel; versions 1 and 2; built on the bubbles of `Sf_Model` and the loop of `Fl_Model` | spec `Sde_Spec`: the diagram with three lines in terms of labelled legs, integration variables of each channel; linearity of the diagrams, exchange of the legs of the bare vertex, spin sum of the t loop; `_partial`: Keldysh basis, DEBUG_SYMMETRIES 1 only, version 3 and the Hartree term not included |
| C126 | `Pit_Model`: compute_SDE with the Hartree term, parquet_iteration, the loop of parquet_solver with linear mixing or Anderson acceleration (parquet_solver.hpp:305-345, 478-492, 561-637; anderson_acceleration.hpp:57-125); the least-squares solution is an arbitrary function of the history | invariant over the list of iterations; symmetric states of weight w are closed under sums and scalings, weights of the history sum to 1 (telescoping); `Sde_Proofs5` shows that the loop over any vertex with the leg symmetries gives a symmetric self-energy; `_partial`: Keldysh basis, DEBUG_SYMMETRIES 1, versions 1 and 2 only. `Mpq_Model`, `Mpa_Model` (Anderson acceleration): the same in the Matsubara formalism at zero temperature; the equation itself keeps the symmetries, its bubbles in the channels a and t are the parts of one symmetric vertex (`Mpq_Props2`; in the Keldysh basis `Sde_Props2`), iterations without particle-hole symmetry do, and with it the constant U/2 (line 348) is added to the stored imaginary part (`_refuted`) |
| C127 | `Sde3_Model`: parquet_solver.hpp:250-292 (compute_SDE_impl_v3, compute_SDE_v3) with the parts of the vertex that stay in integrands; loop of `Fl_Model` | spec `Sde3_Spec`: Hartree diagram, one-sided diagram and its mirror image; what the loop sees is the bare vertex and K1+K2 of one channel; if these are a bubble A-bare (Bethe-Salpeter equation), closing it gives the diagram (as in C125); conjugation of the diagram exchanges left and right. `_refuted`: without particle-hole symmetry the Hartree term is counted twice; the retarded component depends on the vectorisation. `_partial`: Keldysh basis, DEBUG_SYMMETRIES 1 |
| C128 | `Sde3_Model.compute_diff_SDE` (parquet_solver.hpp:352-375); vertex and derivative, propagator and derivative are independent inputs | the loop is bilinear in vertex and propagator; exact second-degree polynomial instead of a limit. `_partial`: as C127; that the propagator of type k is the derivative of the full one is a separate property and not repeated here |
| C129, C130 | `Osi_Model`: old_integrators.hpp:18-165 (dotproduct, integrator_riemann, the three integrator_simpson); doubles and complex values exact rationals; `Q res;` of type double is an indeterminate value (`None`); conversion to int with its range | spec `Osi_Spec`: Simpson and trapezoidal rule along a chain of break points, exact integral of a cubic; the weights 1,4,2,...,4,1 are summed panel by panel (induction on the number of panels), chains are concatenated. `_refuted`: even number of points (general formula of the error for constants), uninitialised double, middle interval near the boundary |
| C131 | `Osi_Model.adaptive_simpson`: old_integrators.hpp:167-321; vectors of points, values, results and flags; loop over the sub-intervals as a traversal; infinite loop with fuel | invariant: the vectors describe tiles of [a,b] with equal halves, those still to be split have the current half width; each pass adds at least two points, so fuel Nmax/2 suffices. `_refuted`: stop after the first pass |
| C132 | Self-check of vertex symmetries (Csy_*): check_symmetries per entry, built on the model of the symmetry tables and of reading (Sym_Model, Tab_Model, Rd_Model); maxima as squared moduli; frequencies with value exactly on the grid (no interpolation), progress output not modelled | absence of false alarms from the reading theorem for symmetric families (both mirror images equal); witnesses for the missed conjugation and for the division by a vanishing maximum; the compared entry lies in the sector of negative frequencies (all cases of the tables, Keldysh with particle-hole symmetry) |
| C133 | Resolution measures (Crv_*): data_container.hpp:210-333 on top of the model of partial_deriv (Arr_Model), real and imaginary parts as separate tables, squares of moduli instead of moduli; the NaN of a vanishing maximum as a separate value | flat formula for the derivative with stride, translated to index tuples inside the axes; linearity for the scale invariance; the exact value as maximum over all positions of the flat differences (Crv_Proofs3); computed witness for the constant table |
| C134 | `Mbe_Model`: `calculate_value` and `get_value` at finite-temperature Matsubara frequencies, scalar and vectorised: summation range, prefactors, tails by formula and by quadrature, index ranges per class, writing into the vector, decision which entries are evaluated; `Dom_Model` for the sums; real values, tails and quadrature as arbitrary functionals (C113, C97). The scalar version with DEBUG_SYMMETRIES 0 subscripts a vector of integers twice and does not compile | `Mbe_Spec`: position and frequency of an entry, sum over frequencies. Nested write loops as one loop over pairs with injective positions; C99 for the sums; the sector of the symmetry tables from `Tab_Model` |
| C135 | `Sbe_Model`: combination of the spin components in the bubble integrand with SBE_DECOMPOSITION (scalar, spin-vectorised, tails), what a vertex hands to a bubble (identity, irreducible, differentiated), rebuilding of K2, K2', K3 in `symmetry_expand` with the order of its steps; `Sbe_Keld`: projections and bare vertex as Keldysh matrices. Values in an arbitrary non-commutative ring (instances: numbers, 4x4 matrices), frequencies as an abstract type, transfer frequency fixed, interpolation left out; Keldysh index layout is the subject of C75 (`Keld_Model`) | `Sbe_Spec`: usual classes of an SBE vertex, integrals as two-sided linear functionals, spin sums, crossing, dual numbers for derivatives. `non_commutative_ring` under the integral; REFUTED part: the value of a channel drops lambda w lambdabar |
| C136 | `Rk4_Model`: RK4_step, the loop of ODE_solver_RK4 and the step sizes over the rationals; `Rk4_Props` compares with `rk_result` of `Rk_Model` for right-hand sides that respect equality of rationals; integrals are those of `Rk_Spec`. postRKstep_stuff is an arbitrary function of the state; output is left out. Line 106 leaves out the argument `rhs` of postRKstep_stuff, so ODE_solver_RK4 cannot be instantiated as it stands; the loop is modelled with that argument added. Closed under the global context. |
| C137 | `Sck_Model`: check_symmetries of the self-energy, values are complex rationals or not a number, the norm is squared. Refuted: the deviation of all internal indices but the last is overwritten, and values that are not numbers are skipped by the maximum. The partial theorem covers one internal index and finite values. Closed under the global context. |
| C138 | `Wdf_Model`: write_dat_rvecs and write_h5_rvecs; a file is its content, doubles and their printed form are of any type; `keys[i]` beyond the end and `&myvec[0]` of an empty vector are undefined, a repeated name is an exception. Not modelled: the six digits of the printed numbers, names with a slash, failures of the file system | reader defined as a relation (pieces between separators) that is shown to be functional; the HDF5 loop by induction over the vectors with the names written so far |
| C69 | multiarray `at` without assertions | witness |
| C70 | `collapse_all` | interleavings of read and write steps; witness |
| C71 | constant-coefficient stencil, `lagrangePoly` | field identities |
| C72, C73 | in-place `vec` operators, `max_norm` | witnesses with aliasing and NaN, correct part proved |
| C74 | `sum_over_internal_vectorized`, `sum_over_internal_scalar` | ring identities against a labelled spin sum |
| C75 | `combine_SBE_to_K2`, `…_K2b`, `…_K3_SBE` | enumeration of components, ring identities |
| C76 | `floor2bfreq`, `ceil2bfreq` near even integers | witness within the tolerance; correct part proved |

## Not modelled

Numerical values of physical results, floating-point rounding, GSL/Eigen/Boost/HDF5/MPI/OpenMP library
internals, wall-clock performance, plotting scripts, the tests, and the code selected by
non-default switches that does not compile.
