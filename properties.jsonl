{"id": "C01", "title": "Flat index and multi-index are mutually inverse", "statement": "For every rank >= 2 and every list of positive dimension lengths whose product fits into size_t, converting an in-range tuple of indices to a flat index and back returns the tuple, converting a flat index below the product of the lengths to a tuple and back returns the flat index, every in-range tuple gives the row-major position below that product, and the computed number of elements is the product; unsigned wrap-around never disturbs the result.", "quantifier": "all ranks >= 2, all positive dimension lists, all in-range tuples and flat indices", "why_tests_cant": "The set of shapes and indices is unbounded; unit tests check a few shapes.", "anchors": ["source/utilities/math_utils.hpp:getFlatIndex", "source/utilities/math_utils.hpp:getMultIndex", "source/utilities/math_utils.hpp:getFlatSize"]}
{"id": "C02", "title": "The flat index of a one-dimensional array is its index", "statement": "For a rank-1 array the flat index of index i is i, for every length and every i below the length.", "quantifier": "all lengths and indices", "why_tests_cant": "A test with index equal to the length minus nothing or a single-element array cannot separate 'returns the index' from other constants; the rank-1 specialisation is not reached by existing tests.", "anchors": ["source/utilities/math_utils.hpp:getFlatIndex (one-dimensional specialisation)"]}
{"id": "C03", "title": "Permuted flat index addresses the permuted tuple", "statement": "Computing a flat index together with a permutation of the dimensions gives the same number as first permuting the index tuple and the dimension list and then computing the ordinary flat index; inverting the permutation twice is the identity and inverse permutations compose to the identity.", "quantifier": "all ranks, dimensions, permutations and index tuples", "why_tests_cant": "Factorially many permutations for each rank.", "anchors": ["source/utilities/math_utils.hpp:getFlatIndex(indx, dims, permutation)", "source/utilities/math_utils.hpp:get_inverse_permutation", "source/utilities/math_utils.hpp:permuteCyclic"]}
{"id": "C04", "title": "Cyclic rotation of flat indices is a bijection", "statement": "Re-indexing a flat array so that a chosen dimension becomes the last one maps each flat index to the flat index of the cyclically rotated tuple, is injective and onto the index range, so no element is lost or duplicated.", "quantifier": "all ranks, dimension lists, chosen dimensions and flat indices", "why_tests_cant": "Bijectivity on every shape is a universal claim.", "anchors": ["source/utilities/math_utils.hpp:rotateFlatIndex", "source/utilities/math_utils.hpp:getMultIndexSkippingOneDimension"]}
{"id": "C05", "title": "Element access of a multidimensional array", "statement": "For every history of writes to in-range tuples of a freshly constructed array, reading an in-range tuple afterwards returns exactly the value last written to it (or the initial value); writing one element leaves every other element unchanged; in builds with assertions any tuple with an out-of-range entry is rejected for reading and writing.", "quantifier": "all shapes, tuples, values and histories of writes", "why_tests_cant": "Aliasing of two tuples to one storage cell can appear for any shape.", "anchors": ["source/multidimensional/multiarray.hpp:at", "source/multidimensional/multiarray.hpp:flat_index", "source/multidimensional/multiarray.hpp:operator()"]}
{"id": "C06", "title": "Range views and vectorised reads address the right elements", "statement": "A block view of an array reads exactly the elements of the requested window in row-major order, and the neighbourhood reads used by the interpolators return the 2^n corner elements in the order in which the weights are computed.", "quantifier": "all shapes, windows and positions inside the array", "why_tests_cant": "Windows times shapes is unbounded and a swapped pair of corners only shows for asymmetric data.", "anchors": ["source/multidimensional/ranged_view.hpp:BlockView", "source/multidimensional/multiarray.hpp:get_values", "source/multidimensional/multiarray.hpp:at_vectorized"]}
{"id": "C07", "title": "Swapping two arrays exchanges their contents", "statement": "After swapping two arrays each one answers every element access and every neighbourhood read like the other did before.", "quantifier": "all pairs of arrays including different lengths", "why_tests_cant": "Only pairs with different lengths expose state that is not exchanged.", "anchors": ["source/multidimensional/multiarray.hpp:swap", "source/multidimensional/multiarray.hpp:operator="]}
{"id": "C08", "title": "Dimension-wise reduction", "statement": "Collapsing an array to a chosen list of kept dimensions with a binary operation gives, for every kept index tuple, the fold of the operation over all elements with these kept indices, each taken exactly once; the maximum-norm reduction along one axis is the maximum of absolute values over each fibre.", "quantifier": "all shapes, dimensions, operations and data", "why_tests_cant": "Universal over shapes and data.", "anchors": ["source/utilities/math_utils.hpp:collapse", "source/utilities/math_utils.hpp:maxabs", "source/utilities/math_utils.hpp:collapse_all"]}
{"id": "C09", "title": "Partial derivative along a dimension only uses neighbours along that dimension", "statement": "The numerical partial derivative of a multidimensional array with respect to dimension i at one position depends only on array elements that agree with this position in all other dimensions.", "quantifier": "all shapes, dimensions, data", "why_tests_cant": "A test on a rank-1 array or with leading dimension one cannot see mixing of rows.", "anchors": ["source/utilities/math_utils.hpp:partial_deriv"]}
{"id": "C10", "title": "Finite differences are exact on low-order polynomials", "statement": "On any strictly ordered, possibly non-uniform grid with at least five points, the numerical derivative of samples of a polynomial of degree at most four equals the exact derivative at every grid point, including the boundary points.", "quantifier": "all grids, all polynomials of degree <= 4, all grid points", "why_tests_cant": "Grids and polynomials form a continuum.", "anchors": ["source/utilities/math_utils.hpp:get_finite_differences"]}
{"id": "C11", "title": "Vector arithmetic is element-wise", "statement": "Adding, subtracting, multiplying or dividing two vectors of equal length acts element by element, scalar operations act on every element, operands are unchanged, and different lengths raise an error; sub-vector access with negative indices counts from the end.", "quantifier": "all vectors, lengths and scalars", "why_tests_cant": "Lengths and values are unbounded.", "anchors": ["source/data_structures.hpp:vec"]}
{"id": "C12", "title": "Mixed real/complex vector helpers", "statement": "Multiplying a vector by a complex number multiplies every element, and the imaginary part of a real number or of a real vector is zero.", "quantifier": "all vectors and complex factors", "why_tests_cant": "A test with zero data passes by accident.", "anchors": ["source/data_structures.hpp:operator*(vec<T>, const comp&)", "source/data_structures.hpp:myimag", "source/data_structures.hpp:vec::imag"]}
{"id": "C13", "title": "Keldysh index and contour indices are in bijection", "statement": "Every Keldysh index 0..15 decomposes into four indices from {1,2}, and composing gives back the same index; conversely every four-tuple composes to an index which decomposes to the tuple.", "quantifier": "all 16 indices and all 16 tuples", "why_tests_cant": "Finite but the claim must hold for all of them jointly with the conventions of every channel.", "anchors": ["source/symmetries/Keldysh_symmetries.c++:alphas", "source/symmetries/Keldysh_symmetries.hpp"]}
{"id": "C14", "title": "Rotating a Keldysh index for matrix products is reversible and meaningful", "statement": "Rotating the four-leg Keldysh index of a vertex into (row, column) form for a channel and side and rotating back is the identity for every channel and side; row and column are exactly the index pairs shared with the external side and with the bubble, so that vertex-bubble-vertex products sum over connected legs.", "quantifier": "all channels, sides and Keldysh indices", "why_tests_cant": "Joint consistency over all channel/side combinations.", "anchors": ["source/symmetries/Keldysh_symmetries.hpp:rotate_Keldysh_matrix", "source/symmetries/Keldysh_symmetries.hpp:unrotate_Keldysh_matrix", "source/symmetries/Keldysh_symmetries.hpp:get_i0_left_right", "source/symmetries/Keldysh_symmetries.c++:indices_sum"]}
{"id": "C15", "title": "The list of non-vanishing bubble components is exact", "statement": "A Keldysh component of a pair of propagators can be non-zero only if it is in the published list of nine components, and each listed component is non-zero for suitable propagators; the scalar and the vectorised evaluation of the bubble agree on all sixteen components in every channel.", "quantifier": "all propagator values, all 16 components, all channels", "why_tests_cant": "Continuum of propagator values.", "anchors": ["source/bubble/bubble.hpp:value", "source/bubble/bubble.hpp:value_vectorized", "source/symmetries/Keldysh_symmetries.hpp:glb_non_zero_Keldysh_bubble"]}
{"id": "C16", "title": "Differentiated bubble is the product-rule derivative", "statement": "The differentiated bubble of G and S is the derivative of the bubble of G when G is differentiated to S, component by component, in every channel.", "quantifier": "all propagator values, all components, all channels", "why_tests_cant": "Continuum of values.", "anchors": ["source/bubble/bubble.hpp:Bubble"]}
{"id": "C17", "title": "Symmetry transformations of the vertex obey the group laws", "statement": "Each elementary symmetry operation applied twice restores channel, spin, Keldysh index, frequencies, sign and conjugation; exchange of incoming and of outgoing legs commute; complex conjugation exchanges the two leg exchanges; composite operations equal the composition of the elementary ones.", "quantifier": "all channels, all classes, all Keldysh indices, all frequencies, spins, signs; Keldysh and Matsubara", "why_tests_cant": "Frequencies are continuous, and rounding of half frequencies in finite temperature Matsubara calculations must not break the laws.", "anchors": ["source/symmetries/symmetry_transformations.hpp:T1", "source/symmetries/symmetry_transformations.hpp:T2", "source/symmetries/symmetry_transformations.hpp:T3", "source/symmetries/symmetry_transformations.hpp:TC", "source/symmetries/symmetry_transformations.hpp:Ti"]}
{"id": "C18", "title": "Symmetry operations permute the physical legs", "statement": "Expressed in the frequencies and Keldysh indices of the four legs, the exchange operations exchange exactly the two outgoing respectively incoming legs (and leave the others alone), and conjugation exchanges incoming with outgoing legs, in every channel.", "quantifier": "all channels, frequencies, Keldysh indices", "why_tests_cant": "Continuum of frequencies; three channel parametrisations with independent hand-written formulas.", "anchors": ["source/symmetries/symmetry_transformations.hpp", "source/correlation_functions/four_point/r_vertex.hpp:transfToR"]}
{"id": "C19", "title": "Symmetry tables only relate components through valid operations", "statement": "For every channel, diagrammatic class, spin and Keldysh index, the tabulated transformation maps the component to spin 0 of the stored class of the right channel, where it carries the same label of independent components; two non-vanishing components have the same label exactly if a symmetry of that class relates them, and the components marked as vanishing are exactly those that causality forces to vanish.", "quantifier": "all table entries", "why_tests_cant": "Hundreds of hand-written entries must be jointly consistent.", "anchors": ["source/symmetries/symmetry_table.hpp:Components_Keldysh", "source/symmetries/symmetry_table.hpp:Transformations_Keldysh"]}
{"id": "C20", "title": "Every frequency sector reduces to the stored sector", "statement": "For every independent component and every sign pattern of the frequencies, the tabulated frequency transformation maps the point into the sector that is stored, so evaluation never depends on unstored data and symmetrisation is idempotent and independent of the order of loop iterations.", "quantifier": "all components, sign patterns, frequencies, iteration orders", "why_tests_cant": "Parallel loop orders and continuous frequencies.", "anchors": ["source/symmetries/symmetry_table.hpp:FrequencyTransformations", "source/correlation_functions/four_point/r_vertex.hpp:enforce_freqsymmetriesK1"]}
{"id": "C21", "title": "Channel frequency conversions are consistent", "statement": "Converting frequencies from one channel parametrisation to another and back returns the original frequencies, converting via a third channel gives the same result as converting directly, and all parametrisations describe the same four leg frequencies (Keldysh / zero temperature).", "quantifier": "all ordered pairs and triples of channels, all real frequencies", "why_tests_cant": "Continuum of frequencies.", "anchors": ["source/correlation_functions/four_point/r_vertex.hpp:transfToR"]}
{"id": "C22", "title": "Channel frequency conversions at finite-temperature Matsubara frequencies", "statement": "For integer (even bosonic, odd fermionic) Matsubara frequencies the conversions between channels, including rounding of half bosonic frequencies, produce frequencies of the right parity, are mutually inverse, compose, and describe the same four legs.", "quantifier": "all integers of the right parity, all channel pairs", "why_tests_cant": "Rounding depends on residues and signs of the frequencies.", "anchors": ["source/correlation_functions/four_point/r_vertex.hpp:transfToR", "source/utilities/math_utils.c++:floor2bfreq", "source/utilities/math_utils.c++:ceil2bfreq"]}
{"id": "C23", "title": "Conversion from leg frequencies at finite-temperature Matsubara frequencies", "statement": "Converting leg frequencies into the a, p or t parametrisation agrees with the parametrisation-to-parametrisation conversions.", "quantifier": "all integers of the right parity, all three channels", "why_tests_cant": "Only odd multiples of the bosonic frequency or non-zero transfer expose a sign error.", "anchors": ["source/correlation_functions/four_point/r_vertex.hpp:transfToR"]}
{"id": "C24", "title": "Vertex decomposition is complete", "statement": "The value of a reducible vertex is the sum of its left-same and left-different parts and also of its right-same and right-different parts, for every diagrammatic truncation.", "quantifier": "all class values, truncation levels", "why_tests_cant": "Values are a continuum and truncations are compile-time.", "anchors": ["source/correlation_functions/four_point/r_vertex.hpp:value", "source/correlation_functions/four_point/r_vertex.hpp:left_same_bare", "source/correlation_functions/four_point/r_vertex.hpp:left_diff_bare", "source/correlation_functions/four_point/r_vertex.hpp:right_same_bare", "source/correlation_functions/four_point/r_vertex.hpp:right_diff_bare"]}
{"id": "C25", "title": "Distributed results equal the sequential result", "statement": "Distributing the work of a bubble over any number of MPI processes and any number of tasks per process, gathering and reordering yields exactly the array a single process would produce; every work item is computed exactly once, and no buffer is overrun.", "quantifier": "all process counts, task counts, thread counts, vector lengths", "why_tests_cant": "Process counts and sizes are unbounded; tests run on one process.", "anchors": ["source/utilities/mpi_setup.hpp:mpi_reorder_result", "source/utilities/mpi_setup.c++", "source/bubble/bubble_function.hpp:perform_computation"]}
{"id": "C26", "title": "Vectorised results land at their physical index", "statement": "When a bubble is computed for all Keldysh components at once, the value computed for given spin, frequency, Keldysh and internal index is stored under exactly these indices, for every number of internal indices.", "quantifier": "all shapes including several internal indices", "why_tests_cant": "With one internal index, which all tests use, two different layouts coincide.", "anchors": ["source/bubble/bubble_function.hpp", "source/symmetries/Keldysh_symmetries.hpp:buffer_config"]}
{"id": "C27", "title": "Rounding to Matsubara grids", "statement": "Integer floor/ceil division, rounding to even (bosonic) and odd (fermionic) integers return the neighbouring integer of the right parity in the right direction for all signs; floor and ceil of half a bosonic frequency are even and add up to the frequency.", "quantifier": "all integers and reals including negatives", "why_tests_cant": "Signs and residues; C++ division truncates.", "anchors": ["source/utilities/math_utils.c++:floor2bfreq", "source/utilities/math_utils.c++:ceil2bfreq", "source/utilities/math_utils.c++:integer_division_floor_2", "source/utilities/math_utils.c++:round2ffreq"]}
{"id": "C28", "title": "Natural and bosonic parametrisation of frequencies are inverse", "statement": "Switching a triple of frequencies from natural to bosonic parametrisation and back is the identity in every channel, and the three bosonic frequencies are the transfer frequencies of the three channels.", "quantifier": "all real frequency triples, all channels", "why_tests_cant": "Continuum.", "anchors": ["source/utilities/math_utils.hpp:switch2bosonicFreqs", "source/utilities/math_utils.hpp:switch2naturalFreqs"]}
{"id": "C29", "title": "Binary search locates the enclosing cell", "statement": "For a strictly increasing array with at least two entries and a point within its range, the search returns j with array[j] <= x < array[j+1] (last cell for the right end point), terminates in all cases, and never reads outside the array.", "quantifier": "all arrays and points", "why_tests_cant": "Unbounded arrays.", "anchors": ["source/utilities/math_utils.hpp:locate"]}
{"id": "C30", "title": "Grid transformations are invertible and monotone", "statement": "Each mapping from frequency to auxiliary grid variable is strictly increasing and odd where documented, and inverse to the mapping back, on its whole domain.", "quantifier": "all real frequencies and positive scales", "why_tests_cant": "Continuum.", "anchors": ["source/grids/frequency_grid.c++:grid_transf_v1", "source/grids/frequency_grid.c++:grid_transf_inv_v1", "source/grids/frequency_grid.c++:grid_transf_v2", "source/grids/frequency_grid.c++:grid_transf_v3", "source/grids/frequency_grid.c++:grid_transf_v4"]}
{"id": "C31", "title": "The hybrid grid is continuous, monotone and hits its end points", "statement": "The three-section hybrid grid maps 0 to 0 and the largest auxiliary value to the upper frequency, its sections join continuously (with equal slopes) with strictly increasing values, and the inverse mapping recovers the auxiliary variable, whenever the section boundaries are ordered.", "quantifier": "all admissible grid parameters, all auxiliary values", "why_tests_cant": "Continuum of parameters.", "anchors": ["source/grids/frequency_grid.c++:hybridGrid", "source/grids/frequency_grid.hpp:hybridGrid"]}
{"id": "C32", "title": "Default section boundaries of the hybrid grid are ordered", "statement": "The initial guess of the hybrid-grid parameters is ordered (first boundary below second boundary below upper frequency) for every positive hybridisation scale.", "quantifier": "all positive scales, all grid kinds", "why_tests_cant": "Only some scales violate the order.", "anchors": ["source/grids/frequency_grid.c++:hybridGrid::guess_essential_parameters"]}
{"id": "C33", "title": "Looking up a frequency returns the enclosing cell", "statement": "For every frequency inside the box the returned grid index i satisfies grid[i] <= w <= grid[i+1], is between 0 and N-2, and no element outside the array is read.", "quantifier": "all grids and frequencies inside the box, including the end points", "why_tests_cant": "Boundary frequencies and rounding corner cases.", "anchors": ["source/grids/frequency_grid.c++:get_grid_index"]}
{"id": "C34", "title": "The box test agrees with the grid", "statement": "A frequency is reported inside the frequency box exactly when it lies between the lower and the upper grid limit (within tolerance), also for a grid that is centred away from zero.", "quantifier": "all grids, centres, frequencies", "why_tests_cant": "Grids centred at zero cannot reveal the error.", "anchors": ["source/grids/frequency_grid.hpp:is_in_box", "source/grids/frequency_grid.c++:set_w_center"]}
{"id": "C35", "title": "Inserting checkpoints keeps the flow grid ordered and complete", "statement": "Adding checkpoint values to a decreasing flow grid keeps it decreasing, keeps every original point, adds every non-negative checkpoint within the range, and adds nothing else.", "quantifier": "all decreasing grids and checkpoint lists", "why_tests_cant": "Unbounded lists.", "anchors": ["source/grids/flow_grid.hpp:add_points_to_Lambda_grid", "source/grids/flow_grid.c++:construct_flow_grid"]}
{"id": "C36", "title": "Flow parametrisations are inverse pairs with the right derivative", "statement": "For each flow parametrisation, mapping the flow parameter to the internal variable and back is the identity and the supplied derivative is the derivative of the mapping.", "quantifier": "all flow parameters in the domain", "why_tests_cant": "Continuum.", "anchors": ["source/grids/flow_grid.hpp:exp_parametrization", "source/grids/flow_grid.hpp:sqrt_parametrization", "source/grids/flow_grid.hpp:log_parametrization", "source/grids/flow_grid.hpp:linear_parametrization"]}
{"id": "C37", "title": "Runge-Kutta coefficients have the documented order", "statement": "The Butcher tableaux satisfy all order conditions for the documented order of the solution and of the embedded error estimate, and stage times equal row sums.", "quantifier": "all tableaux and all order conditions", "why_tests_cant": "Numerical tests cannot distinguish a slightly wrong coefficient from rounding/step-size error.", "anchors": ["source/ODE_solvers/ODE_solvers.hpp:butcher_tableau", "source/ODE_solvers/ODE_solvers.hpp:cash_carp"]}
{"id": "C38", "title": "A Runge-Kutta step integrates polynomials of the documented degree exactly", "statement": "For a right-hand side that is a polynomial in time of degree below the order, one step of any size (positive or negative) gives the exact solution, and the embedded error estimate vanishes up to its order; a step is a linear combination of the stages and leaves its input unchanged.", "quantifier": "all polynomials, times, step sizes", "why_tests_cant": "Continuum.", "anchors": ["source/ODE_solvers/ODE_solvers.hpp:rk_step"]}
{"id": "C39", "title": "Adaptive step control respects its contract", "statement": "If the step routine returns, the accepted step either meets the error tolerance or has the minimal size; the accepted step never exceeds the attempted one in magnitude and has the same direction; the suggested next step is within the configured growth factor and between the minimal and maximal step.", "quantifier": "all error sequences, tolerances and step sizes", "why_tests_cant": "All adaptive histories.", "anchors": ["source/ODE_solvers/ODE_solvers.hpp:rkqs"]}
{"id": "C40", "title": "Adaptive step control terminates after the configured number of attempts", "statement": "The step routine performs at most the configured maximal number of step-size reductions.", "quantifier": "all error sequences including not-a-number", "why_tests_cant": "Only adversarial error histories exhaust the limit.", "anchors": ["source/ODE_solvers/ODE_solvers.hpp:rkqs", "source/ODE_solvers/ODE_solver_config.hpp:max_stepResizing_attempts"]}
{"id": "C41", "title": "The ODE flow stays between start and end point", "statement": "All flow-parameter values at which a state is accepted lie between the initial and the final value, and a finished flow ends at the final value.", "quantifier": "all step histories, checkpoints, intervals", "why_tests_cant": "Needs adversarial combination of checkpoint and step-size suggestion.", "anchors": ["source/ODE_solvers/ODE_solvers.hpp:ode_solver"]}
{"id": "C42", "title": "Nonadaptive and adaptive drivers visit all checkpoints and respect the step limit", "statement": "The driver hands over a state exactly at each checkpoint in order and reports failure only if the allowed number of trials was used up without success.", "quantifier": "all histories of accepted and rejected trials", "why_tests_cant": "History-dependent flags.", "anchors": ["source/ODE_solvers/ODE_solvers.hpp:integrate_adaptive_check", "source/ODE_solvers/ODE_solvers.hpp:integrate_nonadaptive"]}
{"id": "C43", "title": "Multilinear interpolation", "statement": "Inside the frequency box, interpolation in one, two or three dimensions is exact at grid points, exact for multilinear functions of the auxiliary variables, its weights add up to one and the result lies between the minimum and maximum of the corner values; adjacent cells agree on their common face.", "quantifier": "all grids, data, positions", "why_tests_cant": "Continuum.", "anchors": ["source/correlation_functions/n_point/data_buffer.hpp:get_weights", "source/correlation_functions/n_point/data_buffer.hpp:interpolate", "source/interpolations/InterpolatorLinOrSloppy.hpp"]}
{"id": "C44", "title": "High-frequency tails", "statement": "Outside the box at finite-temperature Matsubara frequencies the extrapolation joins continuously to the edge value and decays with the documented power; in Keldysh and zero temperature the value is zero outside the box.", "quantifier": "all frequencies outside the box", "why_tests_cant": "Continuum.", "anchors": ["source/correlation_functions/n_point/data_buffer.hpp:interpolate"]}
{"id": "C45", "title": "Spline interpolation matches values and slopes", "statement": "The cubic spline coefficients reproduce the node values and the supplied node derivatives at both ends of each cell, hence the interpolant is continuously differentiable and exact for cubics.", "quantifier": "all data, derivatives, cell sizes", "why_tests_cant": "Continuum.", "anchors": ["source/interpolations/InterpolatorSpline1D.hpp", "source/interpolations/InterpolatorSpline2D.hpp"]}
{"id": "C46", "title": "Self-energy asymptotics", "statement": "The retarded self-energy equals its asymptotic (Hartree) value outside the frequency box and stored value plus asymptotic value inside; the Keldysh component has no asymptotic part; vector-space operations act consistently on stored and asymptotic part so that evaluation commutes with them.", "quantifier": "all frequencies, data, scalars", "why_tests_cant": "Continuum.", "anchors": ["source/correlation_functions/two_point/selfenergy.hpp:valsmooth", "source/correlation_functions/two_point/selfenergy.hpp:operator+="]}
{"id": "C47", "title": "States form a vector space", "statement": "Sum, difference and scalar multiples of states act on the self-energy, its asymptotic value, the irreducible vertex and every vertex class of every channel simultaneously, keep the frequency grids of the left operand, satisfy the vector-space laws, and the value of the data at arbitrary frequencies depends linearly on it.", "quantifier": "all states and scalars", "why_tests_cant": "Forgetting one component only shows when this component is non-zero.", "anchors": ["source/correlation_functions/state.hpp", "source/correlation_functions/four_point/r_vertex.hpp:apply_binary_op_to_all_vertexBuffers"]}
{"id": "C48", "title": "Absolute value of a state", "statement": "Taking the absolute value of a state replaces every stored number by its absolute value (as used for the element-wise error scale).", "quantifier": "all states", "why_tests_cant": "Tests on non-negative data pass by accident.", "anchors": ["source/correlation_functions/state.hpp:abs"]}
{"id": "C49", "title": "Anderson mixing is an affine, fixed-point preserving combination", "statement": "The mixing coefficients add up to one for every history, the combination minimises the residual norm whenever the least-squares coefficients solve the normal equations, a history of identical fixed points is returned unchanged, and an empty history is rejected.", "quantifier": "all histories, mixing factors, coefficients", "why_tests_cant": "Continuum.", "anchors": ["source/utilities/anderson_acceleration.hpp:anderson_update"]}
{"id": "C50", "title": "Bracketing before minimisation", "statement": "The bracketing phase keeps 0 < a < m < b, and if it ends normally the middle value is below both ends, so that a minimum is enclosed.", "quantifier": "all cost functions and start values", "why_tests_cant": "All functions.", "anchors": ["source/utilities/minimizer.hpp:minimizer"]}
{"id": "C51", "title": "Bracketing terminates", "statement": "The bracketing phase terminates for every cost function.", "quantifier": "all cost functions", "why_tests_cant": "Non-termination cannot be observed by testing.", "anchors": ["source/utilities/minimizer.hpp:minimizer"]}
{"id": "C52", "title": "Parquet iteration bounds", "statement": "The parquet solver performs between one and the configured maximal number of iterations, the mixing ratio stays within its limits, and the reported success means that both relative changes are below the accuracy.", "quantifier": "all iteration histories including invalid numbers", "why_tests_cant": "History dependent, includes NaN.", "anchors": ["source/perturbation_theory_and_parquet/parquet_solver.hpp:parquet_solver"]}
{"id": "C53", "title": "Hartree filling by bisection", "statement": "The bisection for the filling halves the enclosing interval each step, always encloses a solution of the self-consistency equation for a continuous right-hand side with values in [0,1], ends when the residual is below the threshold, and the result is U times the filling.", "quantifier": "all continuous right-hand sides", "why_tests_cant": "Function space.", "anchors": ["source/perturbation_theory_and_parquet/hartree_term.c++:compute_Hartree_term_bracketing"]}
{"id": "C54", "title": "Quadrature rules have the documented degree of exactness", "statement": "The 4-point Gauss-Lobatto rule is exact up to degree 5 and the 7-point Kronrod extension up to degree 9 on every interval, and not beyond; the tabulated 13-point rule integrates polynomials up to degree 19 with an error of at most 1e-15 per coefficient.", "quantifier": "all intervals, all polynomials up to the degree", "why_tests_cant": "Continuum.", "anchors": ["source/integrator/integrator_NR.hpp:Adapt"]}
{"id": "C55", "title": "Adaptive integration covers the interval exactly once", "statement": "For a non-empty interval on which the first estimate does not vanish, the adaptive integration returns a sum of rule values over subintervals that partition the interval; polynomials up to degree 9 are integrated exactly by every run, and the recursion ends for every bounded integrand.", "quantifier": "all integrands, tolerances, recursion histories", "why_tests_cant": "All recursion trees.", "anchors": ["source/integrator/integrator_NR.hpp:integrate"]}
{"id": "C56", "title": "Integration over an interval is oriented", "statement": "Integration over [a,b] with b<a gives minus the integral over [b,a], and small integrands are integrated correctly.", "quantifier": "all intervals and integrands", "why_tests_cant": "Only reversed intervals or tiny integrands show it.", "anchors": ["source/integrator/integrator_NR.hpp:integrate"]}
{"id": "C57", "title": "Feature-aware integration covers the requested interval only", "statement": "Splitting the integration interval at feature frequencies does not change the integral: the subintervals partition [a,b].", "quantifier": "all intervals and feature positions", "why_tests_cant": "Features close to or outside the boundary are needed.", "anchors": ["source/integrator/integrator.hpp:integrator", "source/integrator/integrator.hpp:integrator_Matsubara_T0"]}
{"id": "C58", "title": "Single-scale propagator is the derivative of the propagator", "statement": "For every regulator the single-scale propagator is the derivative of the full propagator with respect to the flow parameter at fixed self-energy, for retarded, Keldysh and Matsubara components, and the Katanin extension is the chain-rule term.", "quantifier": "all frequencies, self-energies, flow parameters", "why_tests_cant": "Continuum, and a factor 1/2 or sign changes only at some frequencies.", "anchors": ["source/correlation_functions/two_point/propagator.hpp:GR_REG2", "source/correlation_functions/two_point/propagator.hpp:SR_REG2", "source/correlation_functions/two_point/propagator.hpp:GR_REG3", "source/correlation_functions/two_point/propagator.hpp:SR_REG3", "source/correlation_functions/two_point/propagator.hpp:SR_REG4", "source/correlation_functions/two_point/propagator.hpp:GM_REG2", "source/correlation_functions/two_point/propagator.hpp:SM_REG2", "source/correlation_functions/two_point/propagator.hpp:Katanin_R"]}
{"id": "C59", "title": "Fluctuation-dissipation relation of the propagator", "statement": "In equilibrium the Keldysh propagator computed from the self-energy components equals the one given by the fluctuation-dissipation relation whenever the self-energy satisfies it; its value is purely imaginary.", "quantifier": "all frequencies, temperatures, self-energies", "why_tests_cant": "Continuum.", "anchors": ["source/correlation_functions/two_point/propagator.hpp:GK", "source/correlation_functions/two_point/propagator.hpp:Fermi_fac"]}
{"id": "C60", "title": "Causality of the retarded propagator", "statement": "If the retarded self-energy has non-positive imaginary part and the hybridisation is positive then the retarded propagator has negative imaginary part, never divides by zero and the spectral function is positive.", "quantifier": "all frequencies and causal self-energies", "why_tests_cant": "Continuum.", "anchors": ["source/correlation_functions/two_point/propagator.hpp:GR"]}
{"id": "C61", "title": "Keldysh and contour bases describe the same propagator", "statement": "The contour components are the rotated Keldysh components; they satisfy the redundancy relation and rotating back recovers them.", "quantifier": "all propagator values", "why_tests_cant": "Continuum.", "anchors": ["source/correlation_functions/two_point/propagator.hpp:valsmooth", "source/loop/integrandSE.hpp:transform_to_KeldyshBasis"]}
{"id": "C62", "title": "Stored states are read back unchanged layer by layer", "statement": "Writing a state to one layer of a result file and reading that layer returns the same data; other layers are not changed; the number of the last written layer is the one reported.", "quantifier": "all histories of writes and reads over all layers", "why_tests_cant": "All histories.", "anchors": ["source/utilities/hdf5_routines.hpp:write_state_to_hdf", "source/utilities/hdf5_routines.hpp:add_state_to_hdf", "source/utilities/hdf5_routines.hpp:read_state_from_hdf", "source/utilities/hdf5_routines.c++:check_convergence_hdf"]}
{"id": "C63", "title": "Saving never loses earlier layers or fails on a fresh file", "statement": "Appending to a missing file creates a usable file, marking a new file as converged works, and continuing a computation from an existing file keeps all earlier layers.", "quantifier": "all file states and call sequences", "why_tests_cant": "Crash and restart histories.", "anchors": ["source/utilities/hdf5_routines.hpp:write_state_to_hdf_LambdaLayer", "source/mfRG_flow/flow.c++:n_loop_flow"]}
{"id": "C64", "title": "Loaded configuration equals the saved configuration", "statement": "Reading back the configuration of a stored run restores every run parameter.", "quantifier": "all configurations", "why_tests_cant": "Uninitialised memory and fields equal to defaults hide it.", "anchors": ["source/utilities/hdf5_routines.hpp", "source/utilities/hdf5_routines.c++:read_config_from_hdf"]}
{"id": "C65", "title": "Perturbation-theory and bubble results are accumulated", "statement": "Calling the bubble function adds the new contribution to the target vertex, so contributions of several diagrams computed in sequence are all contained in the final vertex.", "quantifier": "all sequences of bubble calls", "why_tests_cant": "Needs two calls into the same channel and class.", "anchors": ["source/bubble/bubble_function.hpp:write_out_results_K1", "source/perturbation_theory_and_parquet/perturbation_theory.hpp:vertexInTOPT", "source/perturbation_theory_and_parquet/perturbation_theory.hpp:vertexInFOPT"]}
{"id": "C66", "title": "Multiloop iterations stop", "statement": "The multiloop right-hand side evaluates at most the requested number of loop orders and of self-energy iterations and stops earlier only when the last contribution is below the absolute or relative tolerance.", "quantifier": "all loop numbers, tolerances, contribution histories", "why_tests_cant": "History dependent.", "anchors": ["source/mfRG_flow/right_hand_sides.hpp:rhs_n_loop_flow"]}
{"id": "C67", "title": "Bubble leg frequencies conserve the transfer frequency", "statement": "In every channel the two propagator frequencies of a bubble differ by (a,t) or add up to (p) the transfer frequency, and integer Matsubara frequencies stay fermionic.", "quantifier": "all frequencies; real and integer", "why_tests_cant": "Continuum and parity classes.", "anchors": ["source/bubble/bubble.hpp:convert_to_fermionic_frequencies_1"]}
{"id": "C68", "title": "Result file names distinguish runs", "statement": "Two runs with different physical parameters write to different files.", "quantifier": "all parameter pairs", "why_tests_cant": "Pairs of configurations.", "anchors": ["source/utilities/util.c++:generate_filename"]}
{"id": "C69", "title": "Out-of-range element access is rejected in every build", "statement": "Access to a multidimensional array with an index tuple that has an entry not below the length of its dimension is rejected, whether or not assertions are compiled in.", "quantifier": "all shapes, tuples and build modes", "why_tests_cant": "Tests run in one build mode and only see a crash if the wrong address is unmapped.", "anchors": ["source/multidimensional/multiarray.hpp:at", "source/multidimensional/multiarray.hpp:check_bounds"]}
{"id": "C70", "title": "Reduction over all elements does not depend on the thread schedule", "statement": "Reducing all elements of a vector with a binary operation gives the fold of the operation over all elements for every interleaving of the threads that execute the loop.", "quantifier": "all vectors, operations and thread schedules", "why_tests_cant": "Schedules that lose an update are rare and machine dependent.", "anchors": ["source/utilities/math_utils.hpp:collapse_all"]}
{"id": "C71", "title": "Uniform-grid stencil and Lagrange interpolation", "statement": "The constant-coefficient five-point derivative is exact for polynomials of degree at most four at every point of a uniform grid with at least five points, and the Lagrange interpolation polynomial through distinct nodes takes the given values at the nodes.", "quantifier": "all uniform grids, polynomials of degree <= 4 and positions; all node sets and values", "why_tests_cant": "Grids, polynomials and node sets form a continuum.", "anchors": ["source/utilities/math_utils.hpp:get_finite_differences", "source/utilities/math_utils.hpp:lagrangePoly"]}
{"id": "C72", "title": "In-place scalar operations with one of the vector's own elements", "statement": "Multiplying (adding, subtracting) a vector in place by a scalar that is one of its own elements combines every element with the value this element had before the operation.", "quantifier": "all vectors and positions", "why_tests_cant": "Tests use literal scalars; the aliasing only matters when the scalar is an element of the vector that is not the last one.", "anchors": ["source/data_structures.hpp:scalar_map_assign"]}
{"id": "C73", "title": "Maximum norm", "statement": "The maximum norm of a vector is the largest absolute value of its elements (zero exactly for the zero vector), and a vector with an undefined (NaN) element does not have a finite norm.", "quantifier": "all vectors, including those with NaN elements", "why_tests_cant": "NaN only appears after a failed computation, and norms decide convergence and whether a vertex counts as bare.", "anchors": ["source/data_structures.hpp:max_norm", "source/multidimensional/multiarray.hpp:max_norm"]}
{"id": "C74", "title": "Bubble integrands contain the complete spin sum", "statement": "For spin-rotation invariant vertices given by their two spin components, the integrand evaluated for a spin component equals the sum of the labelled diagram over the spins of both internal lines (a and t channel); in the p channel, for vertices related by crossing symmetry, the integrand at a frequency and at the opposite frequency add up to the full spin sum.", "quantifier": "all vertices, propagators, frequencies, channels, spin components, Keldysh components", "why_tests_cant": "Vertices and propagators form a continuum and the spin terms only differ for vertices without accidental symmetry.", "anchors": ["source/bubble/integrand.hpp:sum_over_internal_vectorized", "source/bubble/integrand.hpp:sum_over_internal_scalar"]}
{"id": "C75", "title": "Single-boson exchange products join the right legs", "statement": "Combining three-point vertices and bosonic propagators stored in the layout of one channel into reducible vertices of another channel gives, component by component, the sum over the two joined legs of the product, stored again in the layout of the first channel.", "quantifier": "all pairs of channels, both sides, all values, all 16 components", "why_tests_cant": "The product is a matrix product over permuted indices; mistakes cancel for symmetric test data.", "anchors": ["source/correlation_functions/four_point/r_vertex.hpp:combine_SBE_to_K2", "source/correlation_functions/four_point/r_vertex.hpp:combine_SBE_to_K2b", "source/correlation_functions/four_point/r_vertex.hpp:combine_SBE_to_K3_SBE"]}
{"id": "C76", "title": "Rounding to bosonic frequencies tolerates small numerical errors", "statement": "Rounding a number down or up to an even integer returns the nearest even integer also when the number deviates from an integer by less than the tolerance built into the rounding functions, without aborting.", "quantifier": "all real numbers, in particular those within the tolerance of an even integer, from both sides", "why_tests_cant": "the window of width 1e-8 around even integers is never hit by tests that use exact integers", "anchors": ["source/utilities/math_utils.c++:floor2bfreq", "source/utilities/math_utils.c++:ceil2bfreq"]}
{"id": "C77", "title": "Full vertex decomposition is complete for every symmetry type and truncation", "statement": "For every kind of vertex passed to a bubble (full, r-irreducible, differentiated), the same and different parts on either side are defined and add up to the value of the vertex, at every diagrammatic truncation.", "quantifier": "all vertices, channels, frequencies, truncation levels, symmetry types", "why_tests_cant": "Truncation and symmetry type are compile-time template arguments; an uninitialised value often happens to be zero.", "anchors": ["source/correlation_functions/four_point/vertex.hpp:left_diff_bare", "source/correlation_functions/four_point/vertex.hpp:right_diff_bare", "source/correlation_functions/four_point/vertex.hpp:gammaRb", "source/correlation_functions/four_point/vertex.hpp:value"]}
{"id": "C78", "title": "Integration measures are the derivatives of the grid mappings", "statement": "The integration measure belonging to each mapping from auxiliary variable to frequency is the derivative of that mapping at every interior point, including the point where the two halves of the mapping meet.", "quantifier": "all auxiliary values in (-1,1), all scales and centres", "why_tests_cant": "Continuum; a wrong measure at isolated points or with a wrong scale is hidden by quadrature errors.", "anchors": ["source/grids/frequency_grid.c++:integration_measure_v1", "source/grids/frequency_grid.c++:integration_measure_v4"]}
{"id": "C79", "title": "A frequency grid runs strictly increasing between its announced limits", "statement": "A constructed frequency grid is strictly increasing, its first point is the lower and its last point the upper limit the grid reports, also after the upper limit has been changed.", "quantifier": "all grid kinds and admissible parameters", "why_tests_cant": "Only special configurations (purely positive grids) violate it.", "anchors": ["source/grids/frequency_grid.c++:initialize_grid", "source/grids/frequency_grid.hpp:set_w_upper"]}
{"id": "C80", "title": "Changing the section boundaries keeps a hybrid grid valid", "statement": "Setting new positive ordered section boundaries on a valid hybrid grid yields a valid hybrid grid that still reaches its upper frequency.", "quantifier": "all hybrid grids and boundaries", "why_tests_cant": "Only boundaries beyond the upper frequency reveal it.", "anchors": ["source/grids/frequency_grid.hpp:update_pos_section_boundaries"]}
{"id": "C81", "title": "The flow grid connects initial and final value", "statement": "A constructed flow grid has the requested number of points, starts at the initial and ends at the final value, is decreasing also after checkpoints between the limits have been added, and its step sizes are negative and add up to the difference of the limits.", "quantifier": "all numbers of steps, limits in the domain of the substitution, checkpoint lists", "why_tests_cant": "Continuum of limits; unbounded lists.", "anchors": ["source/grids/flow_grid.c++:construct_flow_grid", "source/grids/flow_grid.c++:flow_grid_step_sizes"]}
{"id": "C82", "title": "Interaction values are translated to checkpoints completely", "statement": "The checkpoints computed from a list of interaction strengths are, for every order of the list, exactly the corresponding flow parameters between zero and the initial value.", "quantifier": "all lists of interaction strengths and all configurations", "why_tests_cant": "The built-in list is ascending; only other orders reveal lost values.", "anchors": ["source/grids/flow_grid.c++:get_Lambda_checkpoints"]}
{"id": "C83", "title": "The suggested step respects the error model", "statement": "The step suggested after an accepted step is one for which the error model behind the step control (error proportional to the fifth power of the step) predicts an error within the tolerance.", "quantifier": "all accepted steps and error estimates", "why_tests_cant": "A wrong growth threshold only costs repeated steps; results stay correct.", "anchors": ["source/ODE_solvers/ODE_solvers.hpp:rkqs"]}
{"id": "C84", "title": "The suggested step is a number for every parametrisation", "statement": "After an accepted step the suggested next step in the flow parameter is a finite number, so the next step can be attempted and the flow continues.", "quantifier": "all parametrisations, steps and positions", "why_tests_cant": "Needs a step long enough for the doubled step to leave the domain of the parametrisation.", "anchors": ["source/ODE_solvers/ODE_solvers.hpp:rkqs", "source/grids/flow_grid.hpp:sqrt_parametrization"]}
{"id": "C85", "title": "After a checkpoint the flow resumes the interrupted step once", "statement": "After stopping at a checkpoint the flow continues to the target suggested before the stop; afterwards the suggestions of the error control are followed again.", "quantifier": "all histories of checkpoints and suggestions, both flow directions", "why_tests_cant": "History-dependent flags.", "anchors": ["source/ODE_solvers/ODE_solvers.hpp:ode_solver", "source/ODE_solvers/ODE_solvers.hpp:integrate_adaptive_check"]}
{"id": "C86", "title": "A continued flow starts with a step of the last size in the direction of the flow", "statement": "Continuing an interrupted flow first tries a step of the same size in the reparametrised flow parameter as the last one, in the direction of the flow.", "quantifier": "all parametrisations and interrupted flows", "why_tests_cant": "Restarting is not covered by tests and a wrong first step is hidden by the step control.", "anchors": ["source/ODE_solvers/ODE_solvers.hpp:ode_solver"]}
{"id": "C87", "title": "Four-point cubic interpolation", "statement": "The cubic interpolation through four neighbouring grid points reproduces every cubic polynomial of the grid coordinate at every frequency inside the grid.", "quantifier": "all grids, cubic polynomials, frequencies", "why_tests_cant": "Continuum; the edge cells read outside the arrays.", "anchors": ["source/interpolations/InterpolatorLinOrSloppy.hpp:interpolate_sloppycubic1D"]}
{"id": "C89", "title": "Initialising the self-energy", "statement": "Initialising a self-energy with a retarded and a Keldysh value makes its retarded and Keldysh components equal to these values at all frequencies; adding a number to a self-energy shifts its value at all frequencies.", "quantifier": "all values, frequencies, previous contents", "why_tests_cant": "Tests only initialise fresh self-energies with a vanishing Keldysh value.", "anchors": ["source/correlation_functions/two_point/selfenergy.hpp:initialize", "source/correlation_functions/two_point/selfenergy.hpp:operator+="]}
{"id": "C88", "title": "Scaling a vertex scales both of its halves", "statement": "Multiplying a vertex that is stored with two separate halves (not left-right symmetric) by a number multiplies every stored number of both halves.", "quantifier": "all vertices and factors", "why_tests_cant": "Symmetric vertices have one half only, so that tests with them never reach the second.", "anchors": ["source/correlation_functions/four_point/vertex.hpp:GeneralVertex::operator*="]}
{"id": "C90", "title": "Norms of vertices and states measure all data", "statement": "The norm of a vertex or state vanishes only if all its data vanish, bounds every stored number and scales with the absolute value of a factor.", "quantifier": "all states", "why_tests_cant": "Cancellations need complex data with particular phases; unmeasured parts are small in tests.", "anchors": ["source/correlation_functions/four_point/vertex.hpp:norm_K1", "source/correlation_functions/four_point/vertex.hpp:GeneralVertex::norm", "source/correlation_functions/state.hpp:norm"]}
{"id": "C91", "title": "Adding a number and element-wise division act on all data", "statement": "Adding a number to a state adds it to every stored number, and dividing two states divides every stored number.", "quantifier": "all states and numbers", "why_tests_cant": "The forgotten component is constant in tests.", "anchors": ["source/correlation_functions/state.hpp:operator/=", "source/correlation_functions/four_point/vertex.hpp:irreducible::operator/=", "source/correlation_functions/two_point/selfenergy.hpp:operator+="]}
{"id": "C92", "title": "Arithmetic on different frequency grids is rejected", "statement": "Combining two buffers whose frequency grids differ by more than the tolerance raises an error.", "quantifier": "all buffers and grids", "why_tests_cant": "Needs buffers which differ in a single grid.", "anchors": ["source/correlation_functions/n_point/data_buffer.hpp:check_if_frequencyGrid_identical"]}
{"id": "C93", "title": "Ties in the bracketing phase", "statement": "When the cost values at the two ends coincide and the middle value is not below them, the phase does not continue for long: it either ends with an error, or moves the left end once and then ends with an enclosed minimum; the right end is never moved in this situation.", "quantifier": "all numeric cost functions and brackets", "why_tests_cant": "Equal cost values in floating point are a measure-zero event that ordinary tests never meet.", "anchors": ["source/utilities/minimizer.hpp:minimizer"]}
{"id": "C94", "title": "Results of earlier parquet runs are recognised", "statement": "A file that holds a converged parquet result is returned as it is and reported as success; with the option to use the last state in any case, the last stored layer is returned; a missing file starts the computation from the given state.", "quantifier": "all stored histories, options and start states", "why_tests_cant": "Depends on the state of the file system left by earlier, possibly interrupted runs.", "anchors": ["source/perturbation_theory_and_parquet/parquet_solver.hpp:parquet_solver", "source/utilities/hdf5_routines.c++:check_convergence_hdf"]}
{"id": "C95", "title": "Hartree filling by plain iteration", "statement": "The plain fixed-point iteration for the filling ends for every continuous right-hand side with values in [0,1], and its result reproduces itself up to the threshold.", "quantifier": "all continuous right-hand sides", "why_tests_cant": "Non-termination cannot be observed by testing, and depends on the slope of the right-hand side.", "anchors": ["source/perturbation_theory_and_parquet/hartree_term.c++:compute_Hartree_term"]}
{"id": "C96", "title": "A vanishing first estimate is not taken as the result", "statement": "When the rule values of the first level vanish, the interval is subdivided further, so that an accidental zero due to the choice of evaluation points is not returned (as the comment in the source promises).", "quantifier": "all integrands and intervals", "why_tests_cant": "The zero only appears for integrands that vanish at the thirteen nodes of the given interval.", "anchors": ["source/integrator/integrator_NR.hpp:integrate"]}
{"id": "C97", "title": "Tail integrals by substitution", "statement": "The substituted integrands for the half-infinite tails have the primitive of the original integrand composed with the substitution as their primitive, so that integrating them over their parameter range gives the integral over the interval of length 1e14 - 1 beyond (or before) the given frequency.", "quantifier": "all integrands with a primitive, all frequencies", "why_tests_cant": "Continuum.", "anchors": ["source/integrator/integrator_NR.hpp:Adapt_semiInfinitUpper", "source/integrator/integrator_NR.hpp:Adapt_semiInfinitLower"]}
{"id": "C98", "title": "Zero-temperature Matsubara integrals cover the axis up to the surroundings of +-w/2", "statement": "integrator_Matsubara_T0 splits at vmin, vmax, +-w_half and plus and minus every given frequency. Whenever two of these points differ, the intervals used run from each point to the next one, in increasing order and without overlap, leave out only distances of 1e-10 around +-w_half, and cover everything else between the smallest and the largest point. For a primitive with Lipschitz constant M, the result differs from the exact one by at most 2e-10 M times the number of intervals, with and without tails.", "quantifier": "all split points, all integrands with bounded values", "why_tests_cant": "Coinciding and nearly coinciding split points form a continuum; a gap of 1e-10 does not show in numerical checks.", "anchors": ["source/integrator/integrator.hpp:integrator_Matsubara_T0"]}
{"id": "C99", "title": "Matsubara sums add every frequency once, scalar and vectorised alike", "statement": "matsubarasum returns the sum of the integrand over the odd numbers 2n+1 for n from Nmin to Nmax, is additive in the range and rejects ranges of negative length. Every entry of matsubarasum_vectorized is the same sum of products of left vertex, bubble and right vertex, summed over spin components as well; every matrix element that enters has been set.", "quantifier": "all ranges, numbers of spin components and integrands", "why_tests_cant": "An index shift in one of the three matrix fillings only shows for asymmetric ranges.", "anchors": ["source/integrator/integrator.hpp:matsubarasum", "source/integrator/integrator.hpp:matsubarasum_vectorized"]}
{"id": "C100", "title": "Distribution functions are consistent", "statement": "The distribution factor is one minus twice the distribution; the Fermi function lies in [0,1], decreases with frequency, has f(mu+x)+f(mu-x)=1 and equals the second implementation 1/(exp((v-mu)/T)+1).", "quantifier": "all frequencies, chemical potentials, temperatures, zero and finite temperature, with and without bias", "why_tests_cant": "Continuum; the zero-temperature branch is compiled out in the tested configuration.", "anchors": ["source/correlation_functions/two_point/propagator.c++:Fermi_distr", "source/correlation_functions/two_point/propagator.c++:Fermi_fac", "source/correlation_functions/two_point/propagator.c++:Eff_distr", "source/correlation_functions/two_point/propagator.c++:Eff_fac", "source/correlation_functions/two_point/propagator.c++:Fermi_distribution"]}
{"id": "C101", "title": "Matsubara propagator is odd, bounded and independent of the storage convention", "statement": "With particle-hole symmetry the Matsubara propagator is odd in the frequency if the self-energy is, is finite, has the sign of the frequency and is bounded by the inverse of |v| + (Gamma+Lambda)/2 if the self-energy damps; the value stored without particle-hole symmetry is -i times the real number stored with it.", "quantifier": "all nonzero frequencies and self-energies", "why_tests_cant": "Continuum, and the two storage conventions are never compiled together.", "anchors": ["source/correlation_functions/two_point/propagator.hpp:GM_REG2", "source/correlation_functions/two_point/propagator.hpp:GM_REG4"]}
{"id": "C102", "title": "An interrupted save leaves a usable file", "statement": "When a run is killed at any point while it saves a state, the result file reports a layer that can be read back completely, all layers saved before are still there, and the run can be continued from the file.", "quantifier": "all interruption points of all sequences of saves", "why_tests_cant": "Needs a crash between any two of some hundred file operations.", "anchors": ["source/utilities/hdf5_routines.hpp:write_state_to_hdf_LambdaLayer", "source/utilities/hdf5_routines.c++:check_convergence_hdf", "source/mfRG_flow/flow.c++:n_loop_flow", "source/mfRG_flow/right_hand_sides.hpp"]}
{"id": "C104", "title": "Every overload of sopt_state returns", "statement": "Every overload of the function computing the state of second-order perturbation theory returns a result instead of calling itself forever.", "quantifier": "all overloads, all call depths", "why_tests_cant": "No test calls the overload that takes the flow parameter explicitly.", "anchors": ["source/perturbation_theory_and_parquet/perturbation_theory.hpp:sopt_state"]}
{"id": "C103", "title": "Perturbation-theory states contain the Hartree shift once", "statement": "The self-energies of the second-, third- and fourth-order perturbation-theory states have the asymptotic value of the bare (Hartree) state.", "quantifier": "all parameters, loops and formalisms", "why_tests_cant": "The perturbation-theory tests look at the stored frequency dependence or at vertices, not at the asymptotic value of the higher orders.", "anchors": ["source/perturbation_theory_and_parquet/perturbation_theory.hpp:sopt_state", "source/perturbation_theory_and_parquet/perturbation_theory.hpp:topt_state", "source/perturbation_theory_and_parquet/perturbation_theory.hpp:fopt_state", "source/correlation_functions/state.hpp:initialize"]}
{"id": "C105", "title": "The self-energy loop joins the legs it is drawn with", "statement": "Each stored component of the self-energy produced by the loop is the integral over the frequency of the line of the sum over the Keldysh indices and spins of the line of propagator times vertex, with the line joining legs 2' and 2 (closed above) or 1' and 2 (closed on the right), independently of the basis (Keldysh or contour), of the vectorisation, of the order of summation and integration and of the previous contents.", "quantifier": "all vertices, propagators, frequencies, compile-time switches, spin options, linear integration rules", "why_tests_cant": "Only one combination of switches is compiled; index mistakes are invisible for the symmetric vertices used in tests.", "anchors": ["source/loop/integrandSE.hpp:Keldysh_value", "source/loop/integrandSE.hpp:evaluate_vertex_vectorized", "source/loop/integrandSE.hpp:set_Keldysh_components_to_be_calculated", "source/loop/loop.hpp:compute_Keldysh", "source/loop/loop.hpp:compute_Matsubara_finiteT"]}
{"id": "C106", "title": "Splitting off the asymptotic value in the loop loses nothing", "statement": "After the loop the self-energy (stored value plus asymptotic value) equals the computed loop at every finite grid frequency, with the sign of the version, whatever it contained before; Keldysh and vanishing component have no asymptotic part.", "quantifier": "all computed values, previous contents, versions, with and without particle-hole symmetry", "why_tests_cant": "The tests start from empty self-energies and use particle-hole symmetry.", "anchors": ["source/loop/loop.hpp:loop", "source/correlation_functions/two_point/selfenergy.hpp:valsmooth"]}
{"id": "C107", "title": "Self-energy from perturbation theory and Schwinger-Dyson equation", "statement": "The second-order self-energy and the right-hand side of the Schwinger-Dyson equation equal the Hartree value of the initialised state plus the loops, with the second-order diagram counted once, at every grid frequency.", "quantifier": "all loops, parameters, formalisms, with and without particle-hole symmetry", "why_tests_cant": "Needs comparison of whole functions in several formalisms that are never compiled together.", "anchors": ["source/perturbation_theory_and_parquet/perturbation_theory.hpp:selfEnergyInSOPT", "source/perturbation_theory_and_parquet/parquet_solver.hpp:compute_SDE", "source/perturbation_theory_and_parquet/parquet_solver.hpp:compute_SDE_v1", "source/correlation_functions/state.hpp:initialize"]}
{"id": "C108", "title": "Vertex components from fluctuation-dissipation theorems", "statement": "For every vertex in thermal equilibrium (contour components related by the Kubo-Martin-Schwinger condition, and causality) the components computed by compute_components_through_FDTs for K1, K2 and K3 in every channel, and the 16 components of the slices at vanishing transfer frequency, equal those of the vertex; compare_with_FDTs reports a nonzero deviation whenever a vertex violates the theorems in any of its spin components.", "quantifier": "all contour functions, temperatures, frequencies, channels, spin components", "why_tests_cant": "The relations involve three or four independent thermal factors and sixteen complex components; a wrong sign in one term changes only components that no reference data contains.", "anchors": ["source/postprocessing/causality_FDT_checks.hpp:compute_components_through_FDTs", "source/postprocessing/causality_FDT_checks.hpp:compare_with_FDTs", "source/postprocessing/postprocessing.c++:save_slices_through_fullvertex"]}
{"id": "C109", "title": "Checks of self-energies", "statement": "The maximal deviation printed by check_FDTs_selfenergy is zero exactly if the Keldysh component follows from the retarded one at every frequency, which is the case in thermal equilibrium; the deviation of check_FDTs_K1 vanishes in equilibrium; check_SE_causality reports a causal self-energy exactly if no stored value of the imaginary part of the retarded component is positive, missing or NaN.", "quantifier": "all self-energies and K1 functions, including NaN", "why_tests_cant": "A check that accepts wrong input is only noticed with wrong input of the right kind.", "anchors": ["source/postprocessing/causality_FDT_checks.hpp:check_SE_causality", "source/postprocessing/causality_FDT_checks.hpp:check_FDTs_selfenergy", "source/postprocessing/causality_FDT_checks.hpp:check_FDTs_K1"]}
{"id": "C110", "title": "Evaluation covers every saved layer", "statement": "Applied to a result file whose layers 0 to n have been saved, each evaluation (post-processed susceptibilities, slices through the vertex, comparison with the fluctuation-dissipation theorems, Ward identity, sum rule for K1t, Kramers-Kronig check) processes exactly the layers 0 to n, each once, stores every result at the place of its layer and component, and reports a missing file instead of producing output.", "quantifier": "all result files with any number of layers and any last layer, any numbers of frequencies and internal indices", "why_tests_cant": "A missing last layer is a row of zeros in the output; the special cases for 50 and 100 layers are only met with files of that size.", "anchors": ["source/postprocessing/postprocessing.c++:compute_Phi_tilde", "source/postprocessing/postprocessing.c++:sum_rule_K1tK", "source/postprocessing/postprocessing.c++:check_Kramers_Kronig", "source/postprocessing/postprocessing.c++:compute_postprocessed_susceptibilities", "source/postprocessing/postprocessing.c++:save_slices_through_fullvertex", "source/postprocessing/causality_FDT_checks.c++:compare_flow_with_FDTs"]}
{"id": "C111", "title": "Ward identity", "statement": "The number Phi_integrated reported by compute_Phi_tilde is the integrated deviation between both sides of the Ward identity relative to the integral of the self-energy: it is zero if the identity holds at every frequency, and depends on Phi. Both sides are evaluated with the propagator of the saved state.", "quantifier": "all self-energies, all values of Phi, all grids, any integrator that is a function of the values of the integrand", "why_tests_cant": "The reported number looks like a poor but plausible agreement; that it never depends on the right-hand side is a statement about all inputs.", "anchors": ["source/postprocessing/postprocessing.hpp:Integrand_Ward_id_integrated", "source/postprocessing/postprocessing.c++:compute_Phi_tilde"]}
{"id": "C112", "title": "Changing the frequency grid keeps the data", "statement": "Replacing the frequency grid of a stored vertex or self-energy component replaces every value by the interpolation of the old data at the new frequency, for every combination of the other indices: values stay between the old values around the new frequency, the maximum norm does not grow, functions which are represented exactly stay exact, frequencies outside of the old box give zero, and replacing a grid by an equal one changes nothing.", "quantifier": "all grids, all data, one to three frequencies, all index dimensions", "why_tests_cant": "Continuum of grids and data; tests use one internal index and grids which differ.", "anchors": ["source/correlation_functions/n_point/data_buffer.hpp:update_grid", "source/correlation_functions/n_point/data_buffer.hpp:optimize_grid", "source/correlation_functions/state.hpp:update_grid"]}
{"id": "C113", "title": "Analytic tails complete the bubble integrals", "statement": "The correction added to a bubble integral or Matsubara sum is the integral of the product of the two propagators (with decayed self-energy) over the frequencies left out, in all three channels, for every regulator, with and without particle-hole symmetry; for the differentiated bubble it is the derivative of this integral with respect to the flow parameter; sum and correction together approximate the sum over all Matsubara frequencies with every frequency counted once.", "quantifier": "all frequencies, integration limits outside of the poles, hybridisations, flow parameters, temperatures, channels", "why_tests_cant": "Continuum of arguments; the corrections are small next to the integrals, so wrong signs and branches stay within test tolerances, and tests run one regulator at particle-hole symmetry.", "anchors": ["source/asymptotic_corrections/bubble_corrections.hpp:correctionFunctionBubble", "source/asymptotic_corrections/correction_functions.hpp:asymp_corrections_bubble", "source/bubble/bubble_function.hpp:calculate_value"]}
{"id": "C114", "title": "Analytic tails of the loop integral", "statement": "The corrections for the loop integral are the integrals of the single-scale propagator, or of the full propagator with symmetric limits, over the frequencies left out; both formalisms use the same combination of spin components of the vertex and the same hybridisation as the bubble corrections.", "quantifier": "all limits, level positions, hybridisations, vertices, regulators", "why_tests_cant": "Continuum of arguments; the function is not called by the present loop integration.", "anchors": ["source/asymptotic_corrections/loop_corrections.hpp:correctionFunctionSelfEnergy", "source/asymptotic_corrections/correction_functions.hpp:asymp_corrections_loop"]}
{"id": "C115", "title": "Parquet iteration of the vertex", "statement": "One parquet iteration replaces the vertex by the average of its left and right Bethe-Salpeter equations in every channel (r-irreducible vertex on one side, full vertex on the other, all four diagrammatic classes together), with the bare vertex of the formalism as irreducible part. Vertices that solve both equations class by class are left unchanged, with or without class K2' in memory; a vertex that is left unchanged solves the averaged equations.", "quantifier": "all vertices, bubbles that are linear and associative, interactions, formalisms", "why_tests_cant": "Tests compare single runs after a fixed number of iterations; that all classes and channels combine to the exact equation for any vertex is an algebraic statement.", "anchors": ["source/perturbation_theory_and_parquet/parquet_solver.hpp:compute_BSE", "source/perturbation_theory_and_parquet/parquet_solver.hpp:parquet_iteration", "source/correlation_functions/four_point/vertex.hpp:left_same_bare/right_same_bare/left_diff_bare/right_diff_bare", "source/bubble/integrand.hpp:load_vertex_keldyshComponents_left_scalar"]}
{"id": "C116", "title": "Post-processed susceptibilities", "statement": "The post-processed susceptibility of a channel is the bare bubble plus the full vertex between two bare vertices, and it agrees with class K1 of every vertex that solves the parquet equations, so that the stored difference vanishes for solutions, in every formalism; other classes of the results are not touched.", "quantifier": "all vertices, solutions of the parquet equations, interactions, formalisms", "why_tests_cant": "Only approximate solutions are available numerically; agreement for every exact solution and every formalism cannot be sampled.", "anchors": ["source/perturbation_theory_and_parquet/parquet_solver.hpp:susceptibilities_postprocessing"]}
{"id": "C117", "title": "Multiloop flow as derivative of the Bethe-Salpeter equations", "statement": "At a vertex that solves the Bethe-Salpeter equations, the vertex flow returned for any number of loops, completed by the terms which the irreducible parts of its two last orders would feed into higher ones, solves the derivatives of the left and the right Bethe-Salpeter equation for the same derivative of the irreducible vertex; if these parts vanish the flow is the exact derivative.", "quantifier": "all numbers of loops, early stops, vertices, bubbles that are linear and associative, derivatives of the bubble", "why_tests_cant": "The identity holds to all orders and for any bubble; runs show convergence in the number of loops at best.", "anchors": ["source/mfRG_flow/right_hand_sides.hpp:rhs_n_loop_flow", "source/mfRG_flow/right_hand_sides.hpp:calculate_dGammaL", "source/mfRG_flow/right_hand_sides.hpp:calculate_dGammaC_right_insertion"]}
{"id": "C118", "title": "Reading a vertex through its symmetries returns its value", "statement": "If the stored components (spin 0 of K1, K2, K3) are those of a vertex that obeys crossing symmetry and complex conjugation, reading any class, spin, Keldysh component and frequency through the symmetry tables, or from the buffers expanded before a bubble, returns the value of that vertex, taking values from its mirror image exactly where the two sides are exchanged.", "quantifier": "all vertices obeying the symmetries, classes, channels, spins, Keldysh components, frequencies, formalisms", "why_tests_cant": "Unit tests compare a few components with and without symmetry reduction; the statement is about every component and every function with the symmetries.", "anchors": ["source/correlation_functions/four_point/r_vertex.hpp:symmetry_reduce", "source/correlation_functions/four_point/r_vertex.hpp:valsmooth", "source/correlation_functions/four_point/r_vertex.hpp:symmetry_expand", "source/correlation_functions/four_point/vertex.hpp:symmetry_expand"]}
{"id": "C119", "title": "The bare vertex obeys the symmetry operations", "statement": "The bare vertex as initialised obeys the symmetry operations used for all other vertices in the Keldysh basis and in the contour basis: a sign under exchange of two legs of the same kind, and complex conjugation with exchange of in and out.", "quantifier": "all interactions, Keldysh or contour components, spins", "why_tests_cant": "The contour basis is not compiled by default, and the symmetry operations are never applied to the bare vertex in a test.", "anchors": ["source/correlation_functions/four_point/vertex.hpp:irreducible", "source/symmetries/symmetry_transformations.hpp:TC"]}
{"id": "C120", "title": "Symmetrisation completes a vertex from the computed sector", "statement": "If the entries that the bubble computes are values of a vertex with crossing, conjugation, frequency-reversal symmetry and causality, then after enforce_freqsymmetries every entry of the buffer is the value of that vertex.", "quantifier": "all vertices with the symmetries, classes K1, K2, K3, channels, formalisms, grids, orders of the loop, with or without a separate mirror image", "why_tests_cant": "Tests compare runs with and without symmetries up to integration errors on one grid; the statement is exact, for every vertex and grid.", "anchors": ["source/correlation_functions/four_point/r_vertex.hpp:enforce_freqsymmetriesK1", "source/correlation_functions/four_point/r_vertex.hpp:enforce_freqsymmetriesK2", "source/correlation_functions/four_point/r_vertex.hpp:enforce_freqsymmetriesK3", "source/bubble/bubble_function.hpp:get_trafo_K1"]}
{"id": "C121", "title": "Bubbles of symmetric vertices are symmetric", "statement": "If two vertices obey crossing and complex conjugation (and frequency reversal, if particle-hole symmetric), the bubble that bubble_function computes from their parts left and right of the propagator pair, with K1, K2, K2' and K3 results, is the first half of a vertex that obeys the same symmetries; the second half is the bubble of the mirrored operands, and equals the first half if both operands are the same self-mirrored vertex.", "quantifier": "all vertices with the symmetries, channels, classes, spins, Keldysh components, frequencies, propagators with conjugate advanced component, plain and differentiated propagator pairs, all symmetry types of the operands", "why_tests_cant": "A test compares runs on one grid with numerical integration errors; the statement is exact for every symmetric vertex and every propagator.", "anchors": ["source/bubble/bubble_function.hpp:calculate_value", "source/bubble/integrand.hpp:Integrand", "source/bubble/bubble.hpp:value_vectorized", "source/correlation_functions/four_point/vertex.hpp:left_same_bare_symmetry_expanded", "source/correlation_functions/four_point/vertex.hpp:right_diff_bare_symmetry_expanded"]}
{"id": "C122", "title": "Multiloop flow and parquet iteration keep the vertex symmetries", "statement": "If the vertex obeys crossing, complex conjugation and (with particle-hole symmetry) frequency reversal, then the derivative that rhs_n_loop_flow returns obeys them too, for every loop order and number of self-energy iterations, and so does the vertex after a parquet iteration, whose bare part is -U/2 (-U in the Matsubara formalism); no entry needs to be reconstructed by symmetry for this.", "quantifier": "all symmetric vertices, propagator pairs, loop orders, norms, tolerances, mixing rules, channels, classes, spins, Keldysh components and frequencies", "why_tests_cant": "A test can check symmetry of one flow on one grid up to integration errors; the statement is an exact invariant for all vertices and loop orders.", "anchors": ["source/mfRG_flow/right_hand_sides.hpp:rhs_n_loop_flow", "source/mfRG_flow/right_hand_sides.hpp:calculate_dGammaL", "source/mfRG_flow/right_hand_sides.hpp:calculate_dGammaC_right_insertion", "source/perturbation_theory_and_parquet/parquet_solver.hpp:compute_BSE", "source/perturbation_theory_and_parquet/parquet_solver.hpp:parquet_iteration"]}
{"id": "C123", "title": "Flow keeps the symmetries of self-energy and propagators", "statement": "If the vertex obeys crossing, complex conjugation and (with particle-hole symmetry) frequency reversal, and the self-energy has an imaginary Keldysh component and (with particle-hole symmetry, level centred) a retarded component minus the Hartree value that is odd under reversal with conjugation and an odd Keldysh component, then the propagators, the single-scale propagators, the Katanin extension, every loop over the vertex and the derivative of vertex and self-energy that rhs_n_loop_flow returns have the same symmetries, for every loop order and number of self-energy iterations.", "quantifier": "all symmetric vertices and self-energies, regulator values, hybridisations, odd occupation functions, loop orders, tolerances, Anderson coefficients, frequencies; vectorised and scalar loop", "why_tests_cant": "The code stores both components at all frequencies without enforcing the symmetry; a run can only show it for one parameter set up to integration errors.", "anchors": ["source/mfRG_flow/right_hand_sides.hpp:rhs_n_loop_flow", "source/mfRG_flow/right_hand_sides.hpp:selfEnergyOneLoopFlow", "source/mfRG_flow/right_hand_sides.hpp:selfEnergyFlowCorrections", "source/loop/loop.hpp:loop", "source/correlation_functions/two_point/propagator.hpp:Propagator"]}
{"id": "C124", "title": "Internal Keldysh sum outside of the integral", "statement": "With the sum over internal Keldysh indices outside of the frequency integral each entry of the bubble equals the integral of the entry of the matrix product; if only the first diagrammatic class is kept, the components that Integrand leaves out (case_always_has_to_be_zero) do not contribute: either one of the two vertices vanishes by causality or the two lines are analytic in the same half plane.", "quantifier": "all channels, external Keldysh indices, propagators, transfer frequencies, linear integrals; all vertices (classes 2 and 3 or differentiated bubble), all vertices made of bare part and K1 (first class)", "why_tests_cant": "The lists of components are hard-coded per channel and only active in a non-default build; a test run sees one propagator and rounding errors of the integrator hide a missing small component.", "anchors": ["source/bubble/integrand.hpp:case_always_has_to_be_zero", "source/bubble/integrand.hpp:Integrand::operator()", "source/bubble/bubble_function.hpp:calculate_value"]}
{"id": "C125", "title": "Versions of the Schwinger-Dyson equation", "statement": "Each contribution to the self-energy that compute_SDE_impl returns is the diagram with three lines between the bare vertex and the vertex it is given (versions 2: the full vertex; version 1: the bare vertex and one channel), symmetrised in left and right, whichever channel's bubble it is computed from; if the integrals do not depend on the choice of the integration variables, then compute_SDE_v1 and compute_SDE_v2 return the same self-energy, namely this diagram with the full vertex, and the difference between the a and the p channel that is printed vanishes.", "quantifier": "all symmetric vertices and propagators, interaction strengths, frequencies, retarded and Keldysh component, channels, linear integrals; vectorised and scalar loop", "why_tests_cant": "The versions sum different sets of bubbles over different channels and agree only up to integration errors and the frequency boxes; a test cannot tell a wrong weight of one class or spin component from these errors.", "anchors": ["source/perturbation_theory_and_parquet/parquet_solver.hpp:compute_SDE_impl", "source/perturbation_theory_and_parquet/parquet_solver.hpp:compute_SDE_impl_v1", "source/perturbation_theory_and_parquet/parquet_solver.hpp:compute_SDE_v1", "source/perturbation_theory_and_parquet/parquet_solver.hpp:compute_SDE_impl_v2", "source/perturbation_theory_and_parquet/parquet_solver.hpp:compute_SDE"]}
{"id": "C126", "title": "Parquet iterations keep the symmetries", "statement": "If the vertex of a state has the crossing, complex-conjugation, causality and particle-hole symmetries that the compressed storage presupposes, and its self-energy is conjugation symmetric, has an imaginary Keldysh component and is (with particle-hole symmetry) antisymmetric about the Hartree value U/2, then compute_SDE (versions 1 and 2) returns a self-energy with these symmetries, parquet_iteration returns a state with them, and so does every iterate of parquet_solver, with linear mixing and with Anderson acceleration, for any mixing parameters and any solution of the least-squares problem: the weights of the accumulated states sum to one, so neither the bare vertex nor the Hartree value drifts.", "quantifier": "all symmetric states, interaction strengths, numbers of iterations, mixing ratios, Anderson coefficients of the right length, linear integrals; vectorised and scalar loop", "why_tests_cant": "The solver's result depends on the whole history of states and least-squares solutions; a slow drift of the bare value, or a symmetry broken by one class of diagrams, looks like slow convergence.", "anchors": ["source/perturbation_theory_and_parquet/parquet_solver.hpp:compute_SDE", "source/perturbation_theory_and_parquet/parquet_solver.hpp:parquet_iteration", "source/perturbation_theory_and_parquet/parquet_solver.hpp:parquet_solver", "source/utilities/anderson_acceleration.hpp:anderson_update"]}
{"id": "C127", "title": "Version 3 of the Schwinger-Dyson equation", "statement": "compute_SDE_v3 returns the self-energy diagram with three lines between the bare vertex and the vertex whose bubbles with the bare vertex are K1+K2 of the a and of the p channel, and nothing else, independently of the compile-time switch for vectorised integrands. (As the code is, it returns this diagram with the bare vertex on one side only, plus the Hartree diagram, which compute_SDE adds once more; the retarded component has the bare vertex on the other side if the loop is vectorised.)", "quantifier": "all vertices, propagators, frequencies, linear integrals; vectorised and scalar loop", "why_tests_cant": "At half filling the Hartree diagram vanishes and for a converged vertex the two sides agree, so the default set-ups do not show the difference.", "anchors": ["source/perturbation_theory_and_parquet/parquet_solver.hpp:compute_SDE_impl_v3", "source/perturbation_theory_and_parquet/parquet_solver.hpp:compute_SDE_v3", "source/perturbation_theory_and_parquet/parquet_solver.hpp:compute_SDE"]}
{"id": "C128", "title": "Derivative of the self-energy from the Schwinger-Dyson equation", "statement": "compute_diff_SDE returns the derivative of the self-energy of compute_SDE_v3 with respect to a parameter on which vertex and propagator depend with derivatives dGamma and dG: for vertex Gamma + t dGamma and propagator G + t dG the self-energy is that at t = 0, plus t times the result of compute_diff_SDE, plus t^2 times the self-energy of dGamma and dG.", "quantifier": "all vertices and propagators with arbitrary derivatives, parameters t, frequencies, components, linear integrals; vectorised and scalar loop", "why_tests_cant": "A finite-difference test needs a converged flow at two values of the flow parameter and has errors of the size of a missing term.", "anchors": ["source/perturbation_theory_and_parquet/parquet_solver.hpp:compute_diff_SDE", "source/perturbation_theory_and_parquet/parquet_solver.hpp:compute_SDE_impl_v3"]}
{"id": "C129", "title": "Simpson's rule and the Riemann sum compute composite rules", "statement": "integrator_simpson(f, a, b, N) is Simpson's rule on equal sub-intervals of [a,b] and therefore exact for polynomials of degree three, for every number of points and for real as well as complex integrands; integrator_riemann is the trapezoidal rule on the first N frequencies of the global grid.", "quantifier": "all integrands, limits (in any order), numbers of points and grids", "why_tests_cant": "Tests try a few integrands with a tolerance and one parity of N; a wrong weight of one point disappears in the discretisation error.", "anchors": ["source/integrator/old_integrators.hpp:integrator_simpson", "source/integrator/old_integrators.hpp:integrator_riemann", "source/integrator/old_integrators.hpp:dotproduct"]}
{"id": "C130", "title": "Splitting at sharp features covers the domain exactly once", "statement": "integrator_simpson with one or two sharp features integrates over consecutive sub-intervals that lead from a to b, each with Simpson's rule; hence the result is exact for polynomials of degree three wherever the features lie, and is defined whenever a < b and the features lie in [a,b].", "quantifier": "all integrands, limits, positions of the features (in any order, close together, near the boundary) and 0 <= N < 2^31", "why_tests_cant": "The number of points and the sub-intervals depend on comparisons between positions and widths; tests use symmetric features away from the boundary only.", "anchors": ["source/integrator/old_integrators.hpp:integrator_simpson"]}
{"id": "C131", "title": "Adaptive Simpson rule ends and integrates over a partition of the domain", "statement": "adaptive_simpson_integrator ends for every integrand and Nmax, evaluates each of its points once and at most 2*max(3,Nmax)-1 points in total, and returns Simpson's rule on a partition of [a,b] whose parts have lengths (b-a)/2^k; it does not stop before the first few splits have been carried out.", "quantifier": "all integrands, limits and values of Nmax", "why_tests_cant": "The partition depends on the integrand through two convergence tests; that every intermediate vector stays aligned and that the loop ends cannot be read off from sample integrals.", "anchors": ["source/integrator/old_integrators.hpp:adaptive_simpson_integrator", "source/integrator/old_integrators.hpp:simpson_rule_3"]}
{"id": "C132", "title": "The self-check of the vertex symmetries reports a violation exactly when there is one", "statement": "rvert::check_symmetries, called on a channel with all components stored, reports zero deviation for every entry of K1, K2, K2' and K3 if and only if the stored values obey crossing, complex conjugation and exchange of the legs; the relative deviations printed and written to file are finite.", "quantifier": "for all channels, diagrammatic classes, spins, Keldysh components, frequencies and stored values", "why_tests_cant": "The check reads every component through the transformation tables; tests call it only for vertices that come out of a flow, so neither a false alarm on a symmetric vertex nor a symmetry that is silently not checked would show.", "anchors": ["source/correlation_functions/four_point/r_vertex.hpp:569-825", "source/correlation_functions/four_point/r_vertex.hpp:621", "source/correlation_functions/four_point/r_vertex.hpp:806"]}
{"id": "C133", "title": "The resolution measures see curvature and slope of the data, and nothing else", "statement": "DataContainer::get_curvature_max and get_deriv_max return the largest squared norm of the second (first) finite differences of the data along the frequency axes relative to the largest squared modulus: they vanish for data without frequency dependence, do not change when the data are multiplied by a number, and are finite for every table.", "quantifier": "for all tables of complex numbers with one, two or three frequency axes of at least three points, any number of other components", "why_tests_cant": "The measures are only used as cost functions of the grid optimisation, where a wrong value merely leads to a different grid.", "anchors": ["source/correlation_functions/n_point/data_container.hpp:210-333", "source/utilities/math_utils.hpp:687-716", "source/correlation_functions/n_point/data_buffer.hpp:438"]}
{"id": "C134", "title": "Finite-temperature Matsubara bubbles: sum, tails and storage", "statement": "At finite-temperature Matsubara frequencies every entry (v, v') of a bubble of class K1, K2, K2' or K3 is T times the sum over all fermionic frequencies of the summation range of left vertex, propagators and right vertex at the grid frequencies belonging to this entry, plus the tail beyond the range; it is stored at the position of (v, v') in the container. The scalar and the vectorised evaluation return the same numbers. The summation range is mapped onto itself when the two propagators exchange their roles. Without DEBUG_SYMMETRIES, all entries that symmetrisation takes as given are evaluated.", "quantifier": "for all even numbers of fermionic frequencies, all sizes of the summation range, all transfer frequencies, temperatures, vertices, propagators, classes and entries", "why_tests_cant": "Scalar and vectorised evaluation are alternative builds of which a test only sees one; a single missing or displaced entry next to the edge, or a tail with a wrong weight, changes results by less than the tolerances of tests.", "anchors": ["source/bubble/bubble_function.hpp:422-521 BubbleFunctionCalculator::calculate_value", "source/bubble/bubble_function.hpp:302-359 get_value", "source/bubble/bubble_function.hpp:733-880 get_trafo_K1, get_trafo_K2, get_trafo_K3", "source/asymptotic_corrections/correction_functions.hpp:20-24 asymp_corrections_bubble_via_quadrature"]}
{"id": "C135", "title": "Single-boson exchange form of the vertex gives the same vertex as the usual classes", "statement": "With SBE_DECOMPOSITION the vertex is stored as screened interaction w, Hedin vertices lambda, lambdabar and multi-boson part. A bubble of two such vertices produces exactly the bubble of the vertices with the usual classes K2 = lambda w, K2' = w lambdabar, K3 = multi-boson part + lambda w lambdabar: K1 is the same, and K2, K2', K3 are recovered from the new w, lambda, lambdabar and multi-boson part, for every channel and spin component and with the irreducible vertex inserted on either side. The scalar integrand, the spin-vectorised integrand and the tail corrections combine the spin components identically, namely as a sum over internal spins. The projections applied in the Keldysh formalism do not change the result. symmetry_expand rebuilds the usual classes in all channels other than that of the bubble, for a differentiated vertex their derivatives, and the value of a channel entering the bubbles of other channels is the sum of all its classes.", "quantifier": "for all values in an arbitrary (non-commutative) ring (numbers or Keldysh matrices), all integrals linear from both sides, all classes, channels, spins, frequencies, propagator pairs and stored vertices", "why_tests_cant": "SBE_DECOMPOSITION is a compile-time alternative; a test of one build cannot see whether both describe the same vertex, and a missing product in one spin component of one class only shifts results by higher orders in the interaction.", "anchors": ["source/bubble/integrand.hpp:175-212 projections", "source/bubble/integrand.hpp:583-1160 Integrand::load_vertex_keldysh_and_spin_Components_*, sum_over_internal_scalar, sum_over_internal_vectorized", "source/asymptotic_corrections/correction_functions.hpp:195-305 tails with SBE", "source/correlation_functions/four_point/vertex.hpp:464-824 construct_SBE_*, symmetry_expand_impl", "source/correlation_functions/four_point/vertex.hpp:946-1004, 1077-1100 GeneralVertex", "source/correlation_functions/four_point/r_vertex.hpp:520-528, 1536-1596 valsmooth_symmetry_expanded, value_symmetry_expanded"]}
{"id": "C136", "title": "Fixed-step Runge-Kutta-4 solver", "statement": "The step of the fixed-step solver is the step that the adaptive solver makes with the tableau RK4basic. The solver started at a point of the flow grid makes one step per remaining interval and ends at the last grid point, whatever is done to the state between the steps. Right-hand sides that are polynomials of degree at most 3 in Lambda are integrated exactly, on every grid, and a linear equation is advanced by the exponential series up to the fourth order.", "quantifier": "for all states, right-hand sides, grids (not necessarily equidistant or monotone), starting points and functions applied between the steps", "why_tests_cant": "A wrong weight or a step size taken from the neighbouring interval still converges with the number of steps; tests with a tolerance on one equidistant grid accept it.", "anchors": ["source/ODE_solvers/old_solvers.hpp:14-51 RK4_step", "source/ODE_solvers/ODE_solvers.hpp:85-113 ODE_solver_RK4", "source/grids/flow_grid.c++:69-75 flow_grid_step_sizes"]}
{"id": "C137", "title": "Self-check of the particle-hole symmetry of the self-energy", "statement": "With particle-hole symmetry SelfEnergy::check_symmetries prints the largest deviation of Sigma(v) - A from -conj(Sigma(-v) - A) (A the Hartree term) over all grid frequencies and internal indices; 0 means that the symmetry holds everywhere.", "quantifier": "for all retarded self-energies (values that are numbers or not), real asymptotic values, grids and numbers of internal indices", "why_tests_cant": "The function is a diagnostic that only prints; it looks right as long as the self-energy is, and its blind spots appear only for more than one internal index or for data that are not numbers.", "anchors": ["source/correlation_functions/two_point/selfenergy.hpp:408-425 SelfEnergy::check_symmetries", "source/data_structures.hpp:379-385 vec::max_norm"]}
{"id": "C138", "title": "Data files hold the vectors that are written", "statement": "write_dat_rvecs writes a table with one line for each vector and one printed number, followed by a space, for each element; reading the table gives back exactly the printed numbers. write_h5_rvecs ends without error exactly if every vector has a name, the names are distinct and no vector is empty; the file then holds each vector under its name and nothing else, whatever it held before. Only rank 0 touches the files.", "quantifier": "for all lists of vectors and of names, previous contents of the file, ranks, and printers whose output has neither spaces nor newlines", "why_tests_cant": "The two test functions write one fixed pair of vectors each and never read the files; fewer names than vectors, equal names or empty vectors do not occur in them.", "anchors": ["source/utilities/write_data2file.c++:3-12 write_dat_rvecs", "source/utilities/write_data2file.c++:19-37 write_h5_rvecs"]}
