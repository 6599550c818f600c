{
 "claims": [
  {
   "property": "C01",
   "status": "proved",
   "theorems": [
    "C01_flat_then_multi",
    "C01_multi_then_flat",
    "C01_flat_size"
   ],
   "note": "size_t arithmetic modelled with wrap-around modulo 2^64"
  },
  {
   "property": "C02",
   "status": "partial",
   "theorems": [
    "C02_rank1_flat_index_refuted"
   ],
   "note": "REFUTED: the rank-1 specialisation returns dims[0]; never the index of an in-range element"
  },
  {
   "property": "C03",
   "status": "proved",
   "theorems": [
    "C03_permuted_flat_index",
    "C03_inverse_permutation",
    "C03_cyclic_permutation"
   ],
   "note": ""
  },
  {
   "property": "C04",
   "status": "proved",
   "theorems": [
    "C04_rotate_addresses_rotated_tuple",
    "C04_rotate_bijection",
    "C04_skip_one_dimension"
   ],
   "note": ""
  },
  {
   "property": "C05",
   "status": "proved",
   "theorems": [
    "C05_access_history",
    "C05_out_of_range_rejected",
    "C05_write_frame"
   ],
   "note": ""
  },
  {
   "property": "C06",
   "status": "proved",
   "theorems": [
    "C06_block_view_get_vec",
    "C06_neighbourhood_read"
   ],
   "note": "window of the neighbourhood read given at the level of buffer elements; trailing indices after the first non-frequency index are ignored by the code"
  },
  {
   "property": "C07",
   "status": "partial",
   "theorems": [
    "C07_swap_refuted",
    "C07_swap_element_access_partial",
    "C07_swap_same_lengths_partial"
   ],
   "note": "REFUTED: swap leaves the cumulative lengths in place; holds for element access and for arrays of equal lengths"
  },
  {
   "property": "C08",
   "status": "proved",
   "theorems": [
    "C08_collapse",
    "C08_maxabs"
   ],
   "note": "maxabs for real data"
  },
  {
   "property": "C09",
   "status": "partial",
   "theorems": [
    "C09_partial_deriv_refuted",
    "C09_partial_deriv_partial"
   ],
   "note": "REFUTED: rows are mixed when a leading dimension is longer than 1; correct otherwise"
  },
  {
   "property": "C10",
   "status": "proved",
   "theorems": [
    "C10_partial_derivative_exact"
   ],
   "note": "Array level, any rank and dimension; exact rational arithmetic. Debug assertions on small denominators not modelled."
  },
  {
   "property": "C100",
   "status": "partial",
   "theorems": [
    "C100_factor",
    "C100_zero_temperature_refuted",
    "C100_range",
    "C100_decreasing",
    "C100_particle_hole",
    "C100_textbook"
   ],
   "note": "Proved except REFUTED at zero temperature and v = mu: the factor is 0, one minus twice the distribution is 1, and the two Fermi functions give 0 and 1/2."
  },
  {
   "property": "C101",
   "status": "proved",
   "theorems": [
    "C101_odd",
    "C101_finite",
    "C101_rotation"
   ],
   "note": "Regulators 2 and 4 for oddness and rotation; bound for regulator 2."
  },
  {
   "property": "C102",
   "status": "partial",
   "theorems": [
    "C102_partial",
    "C102_creation_refuted",
    "C102_parameters_refuted",
    "C102_statistics_refuted",
    "C102_grids_refuted"
   ],
   "note": "REFUTED: killed while creating the file: reported as layer 0, unreadable, flow cannot be started again; killed after the new layer number but before its grids: reported layer has empty grids; killed between saving the first step and its statistics: continued flow throws after one step. PARTIAL: all other layers stay readable at every interruption point of appending and the previous layer is reported until the layer number is replaced. Interruption right after creating the parameter group makes every later flow stop (C102_parameters_refuted)."
  },
  {
   "property": "C103",
   "status": "partial",
   "theorems": [
    "C103_sopt_partial",
    "C103_topt_refuted",
    "C103_topt_default_refuted"
   ],
   "note": "REFUTED: topt_state and fopt_state add the bare self-energy to the second-order one, which already carries the Hartree value as asymptotic value, so it is counted twice. PARTIAL: second order has it once."
  },
  {
   "property": "C104",
   "status": "partial",
   "theorems": [
    "C104_partial",
    "C104_refuted"
   ],
   "note": "REFUTED: the overload of sopt_state with an explicit flow parameter calls itself. PARTIAL: the overload with the flag returns."
  },
  {
   "property": "C105",
   "status": "partial",
   "theorems": [
    "C105_vectorised_partial",
    "C105_scalar_partial",
    "C105_outer_sum_contour_partial",
    "C105_outer_sum_keldysh_refuted",
    "C105_outer_sum_tables_partial",
    "C105_spin_sum_right_refuted",
    "C105_outer_sum_component_refuted",
    "C105_matsubara_partial"
   ],
   "note": "REFUTED: with SWITCH_SUM_N_INTEGRAL 0 in the Keldysh basis the calculator asks for component type 1 (assertion; without assertions the Keldysh component is stored as retarded one, everything counted twice and added to the old contents); spin sum for the line closed on the right gives 2V0+3V1 instead of V0+2V1. PARTIAL: SWITCH_SUM_N_INTEGRAL 1 for both bases, vectorised and scalar, both closings (single spin) and spin sum closed above; SWITCH_SUM_N_INTEGRAL 0 in the contour basis; the component tables of the outer sum explicitly; Matsubara."
  },
  {
   "property": "C106",
   "status": "partial",
   "theorems": [
    "C106_splitting_partial",
    "C106_symmetric_partial",
    "C106_symmetric_refuted",
    "C106_third_component_refuted"
   ],
   "note": "REFUTED: with particle-hole symmetry the previous asymptotic value stays on top of the result (with a minus sign for version 1); valsmooth reports minus the asymptotic value for the third component. PARTIAL: without particle-hole symmetry, and with it if the asymptotic value was zero."
  },
  {
   "property": "C107",
   "status": "partial",
   "theorems": [
    "C107_sopt_partial",
    "C107_sopt_refuted",
    "C107_sde_counting_partial",
    "C107_sde_mean_partial",
    "C107_sde_partial",
    "C107_sde_refuted",
    "C107_sde_matsubara_refuted"
   ],
   "note": "REFUTED: without particle-hole symmetry the constant split off by the loop is overwritten by the Hartree value (second order and Schwinger-Dyson equation); in Matsubara with particle-hole symmetry the Schwinger-Dyson equation adds U/2 to the stored imaginary part. PARTIAL: Keldysh with particle-hole symmetry; counting of the second-order diagram."
  },
  {
   "property": "C108",
   "status": "partial",
   "theorems": [
    "C108_K1_partial",
    "C108_K2_partial",
    "C108_K3_partial",
    "C108_slice_partial",
    "C108_no_deviation_partial",
    "C108_K3_detected_partial",
    "C108_second_spin_refuted"
   ],
   "note": "REFUTED: the K1 and K2 loops of compute_components_through_FDTs run over n_in instead of n_spin values, so violations in the second spin component leave no deviation (C108_second_spin_refuted). PARTIAL: all formulas (K1, K2, K3 in the three channels, and the 16 slice components for conjugation-symmetric vertices) hold for every thermal function, K3 violations are detected in every spin component; exact arithmetic, finite temperature, mu = 0, values at grid points instead of interpolated ones."
  },
  {
   "property": "C109",
   "status": "partial",
   "theorems": [
    "C109_selfenergy_deviation_partial",
    "C109_selfenergy_equilibrium_partial",
    "C109_K1_equilibrium_partial",
    "C109_causality_partial",
    "C109_causality_matsubara_partial",
    "C109_causality_refuted"
   ],
   "note": "REFUTED: a self-energy of NaN, or with positive values at a further internal index, is reported causal. PARTIAL: the reported deviation is the maximum and zero exactly if the theorem holds, equilibrium self-energies and K1 (nonzero frequency) do not deviate, the causality report is exact for finite values and one internal index; exact arithmetic; Matsubara: the count is zero exactly if no imaginary part has the sign of its frequency."
  },
  {
   "property": "C11",
   "status": "proved",
   "theorems": [
    "C11_binary_elementwise",
    "C11_assignment_elementwise",
    "C11_self_assignment",
    "C11_scalar_elementwise",
    "C11_scalar_assignment",
    "C11_transform",
    "C11_subvector",
    "C11_diff"
   ],
   "note": "Operations are arbitrary functions, elements of any type; separate scalar objects (aliased scalars: C72). Operands are values, so they are unchanged by construction."
  },
  {
   "property": "C110",
   "status": "partial",
   "theorems": [
    "C110_susceptibilities_partial",
    "C110_slices_partial",
    "C110_slices_refuted",
    "C110_fdt_refuted",
    "C110_sum_rule_refuted",
    "C110_phi_refuted",
    "C110_phi_partial",
    "C110_phi_index_refuted",
    "C110_kramers_kronig_refuted",
    "C110_kramers_kronig_last_refuted",
    "C110_missing_refuted",
    "C110_missing_partial"
   ],
   "note": "REFUTED: comparison with fluctuation-dissipation theorems, sum rule, Ward identity and Kramers-Kronig check leave out the last saved layer (loop condition < instead of <=); for files of 50 or 100 layers the Kramers-Kronig check asks for layers 51, 53, 56, 65 or 115 and raises; with more than one internal index the frequencies and self-energies of the Ward identity are stored with the wrong stride and overwrite each other; the sixteenth Keldysh component of the slices is never filled; for a missing file an empty file of susceptibilities is written without any error. PARTIAL: susceptibilities and slices (components 0 to 14) for all layers, the others for all layers but the last (Ward identity with one internal index)."
  },
  {
   "property": "C111",
   "status": "partial",
   "theorems": [
    "C111_integrated_refuted",
    "C111_identity_refuted",
    "C111_weight_partial",
    "C111_weight_refuted"
   ],
   "note": "REFUTED: the imaginary part is taken of a sum of the (real) interpolated Phi and the self-energy, so Phi drops out and the reported number is 1 (or not a number) for every Phi, also if the identity holds exactly; the Hartree term is overwritten by U/2, so without particle-hole symmetry Phi is evaluated with another propagator than that of the saved state. PARTIAL: the propagator is the one of the state if the Hartree term is U/2."
  },
  {
   "property": "C112",
   "status": "partial",
   "theorems": [
    "C112_values_partial",
    "C112_norm_partial",
    "C112_multiaffine_partial",
    "C112_outside_partial",
    "C112_internal_refuted",
    "C112_same_grid_refuted",
    "C112_flow_partial"
   ],
   "note": "REFUTED: replacing a grid by an equal one reads behind the end of the frequency vector at the last grid point (reached by optimize_grid, and by flows whose regulator leaves the grid unchanged); with more than one internal index all internal indices receive the interpolation of the data of internal index zero. PARTIAL: when all new points are in the old box the update is defined, every value is between the old corner values, the norm does not grow, multiaffine functions of the grid coordinates are exact (first internal index), values outside are zero; the hybridisation flow always meets the hypothesis. Missing: Matsubara finite-temperature boxes (DENSEGRID), hybrid grids."
  },
  {
   "property": "C113",
   "status": "partial",
   "theorems": [
    "C113_propagator",
    "C113_tails_partial",
    "C113_interaction_partial",
    "C113_derivative_partial",
    "C113_propagator_complex",
    "C113_complex_partial",
    "C113_complex_p_partial",
    "C113_branch_refuted",
    "C113_complex_derivative_partial",
    "C113_complex_p_sign_refuted",
    "C113_limits_partial",
    "C113_overlap_refuted",
    "C113_cutoff_partial",
    "C113_cutoff_derivative_partial",
    "C113_cutoff_series_partial",
    "C113_cutoff_diff_refuted",
    "C113_cutoff_far_refuted",
    "C113_cutoff_near_refuted",
    "C113_propagator_cutoff",
    "C113_cutoff_units_refuted",
    "C113_configurations_refuted",
    "C113_selection_partial",
    "C113_spin_sum_partial",
    "C113_keldysh_partial",
    "C113_keldysh_p_partial",
    "C113_propagator_keldysh",
    "C113_keldysh_branch_refuted"
   ],
   "note": "REFUTED: the tail starts at the last summed frequency, half a spacing inside the region already summed (overlap); p channel without particle-hole symmetry: wrong branch of the logarithm for large |eps|, wrong sign of the differentiated correction; Keldysh: wrong branch for hybridisations above the integration limit (retarded with advanced propagator in a and t, equal propagators in p); frequency cutoff with hybridisation: differentiated correction and far region do not contain the hybridisation, near region belongs to another integrand, and the regulator uses other units than the propagator's; no value at all for REG 3, 4 without particle-hole symmetry, zero for other regulators and for the differentiated Keldysh bubble. PARTIAL: hybridisation and interaction regulators, complex propagators, Keldysh formulas (not reached by the present callers), frequency cutoff without hybridisation, derivatives, limits, selection and spin sums. Real numbers, no rounding."
  },
  {
   "property": "C114",
   "status": "partial",
   "theorems": [
    "C114_single_scale_partial",
    "C114_keldysh_partial",
    "C114_matsubara_partial",
    "C114_factor_refuted",
    "C114_hybridisation_refuted",
    "C114_full_partial"
   ],
   "note": "REFUTED: the Matsubara branch leaves out the bare vertex of spin component 1, and the hybridisation ignores the regulator. PARTIAL: single-scale propagators, retarded, advanced and (at zero temperature) Keldysh component of the full propagator, Matsubara propagators up to a common sign."
  },
  {
   "property": "C115",
   "status": "proved",
   "theorems": [
    "C115_average",
    "C115_average_reduced",
    "C115_solution",
    "C115_kept",
    "C115_kept_reduced",
    "C115_converged"
   ],
   "note": "For bubbles that are linear on both sides and associative (exact integration) and MAX_DIAG_CLASS 3 without SBE decomposition; both settings of DEBUG_SYMMETRIES."
  },
  {
   "property": "C116",
   "status": "partial",
   "theorems": [
    "C116_value_partial",
    "C116_solution_partial",
    "C116_kept_partial",
    "C116_matsubara_refuted"
   ],
   "note": "REFUTED in the Matsubara formalism: the bare vertex of the check is - U / 2 unless CONTOUR_BASIS is set, while the Matsubara formalism has - U, so exact solutions fail it. PARTIAL: value for any vertex; Keldysh formalism and contour basis: K1 of every solution is reproduced and the difference is zero; other classes untouched."
  },
  {
   "property": "C117",
   "status": "partial",
   "theorems": [
    "C117_derivative_partial",
    "C117_exact_partial"
   ],
   "note": "PARTIAL: for DEBUG_SYMMETRIES 1 (all classes in memory; otherwise the reordering by symmetry would have to be modelled), MAX_DIAG_CLASS 3, bubbles linear and associative."
  },
  {
   "property": "C118",
   "status": "partial",
   "theorems": [
    "C118_read_by_symmetry_partial",
    "C118_read_symmetric_vertex_partial",
    "C118_read_without_symmetries",
    "C118_expanded_vertex_partial",
    "C118_expanded_upup_partial"
   ],
   "note": "PARTIAL: proved for the Keldysh basis and the Matsubara formalism with and without SBE decomposition, and in every basis with all symmetries switched off; the contour basis is excluded for the reads through the tables (see C119), the component with all spins up needs equal frequency grids of the two spin buffers, interpolation is taken as given."
  },
  {
   "property": "C119",
   "status": "partial",
   "theorems": [
    "C119_bare_exchange",
    "C119_bare_conjugation_keldysh_basis_partial",
    "C119_conjugation_on_contour",
    "C119_bare_conjugation_on_contour",
    "C119_bare_contour_conjugation_refuted",
    "C119_bare_expanded"
   ],
   "note": "REFUTED: in the contour basis complex conjugation has to exchange the branches, the operation TC keeps them, so that the bare vertex read through it has the wrong sign. PARTIAL: exchange holds in all bases, conjugation in the Keldysh basis, and on the contour with exchanged branches."
  },
  {
   "property": "C12",
   "status": "partial",
   "theorems": [
    "C12_complex_factor_refuted",
    "C12_imag_of_real_refuted",
    "C12_complex_parts_partial"
   ],
   "note": "REFUTED: vec*comp always returns zeros (result[i] *= ... on a zero vector), imaginary part of a real number is the number itself."
  },
  {
   "property": "C120",
   "status": "partial",
   "theorems": [
    "C120_symmetrised_vertex_partial",
    "C120_dropped_at_edge_refuted"
   ],
   "note": "REFUTED: next to the edge of a finite-temperature Matsubara box the entry is set to zero, even if it has been computed. PARTIAL: all other entries, in the Keldysh basis and the Matsubara formalism; contour basis excluded, buffers are read by exact interpolation."
  },
  {
   "property": "C121",
   "status": "partial",
   "theorems": [
    "C121_bubble_symmetric_partial",
    "C121_bubble_reversible_partial",
    "C121_bubble_mirror_partial",
    "C121_frequency_sum",
    "C121_finite_temperature_symmetric",
    "C121_finite_temperature_reversible",
    "C121_finite_temperature_mirror",
    "C121_matsubara_symmetric",
    "C121_matsubara_reversible",
    "C121_matsubara_mirror"
   ],
   "note": "PARTIAL: crossing, conjugation, frequency reversal and mirror image proved for the Keldysh basis and for the Matsubara formalism at zero and at finite temperature; missing: contour basis, analytic tails at finite temperature, boson-exchange decomposition, vanishing components of the result; the integral (at finite temperature only the tails of the frequency sum) is a functional that commutes with sign, conjugation and reflection."
  },
  {
   "property": "C122",
   "status": "partial",
   "theorems": [
    "C122_matsubara_multiloop_symmetric",
    "C122_matsubara_parquet_symmetric",
    "C122_finite_temperature_multiloop_symmetric",
    "C122_finite_temperature_parquet_symmetric",
    "C122_multiloop_symmetric_partial",
    "C122_parquet_symmetric_partial"
   ],
   "note": "PARTIAL: proved for the Keldysh basis and for the Matsubara formalism at zero and at finite temperature with all entries computed (DEBUG_SYMMETRIES 1, the default); missing: contour basis, boson-exchange decomposition; the integral (at finite temperature: the tails, the frequency sum itself is the one of the code) is a functional that commutes with sign, conjugation and reflection, the data are known at all frequencies (no interpolation), and the self-energy enters through an assumed property of its derivatives."
  },
  {
   "property": "C123",
   "status": "partial",
   "theorems": [
    "C123_loop_keeps_symmetries_partial",
    "C123_propagators_keep_symmetries_partial",
    "C123_derivatives",
    "C123_propagators_in_equilibrium",
    "C123_flow_keeps_symmetries_partial",
    "C123_matsubara_propagators_keep_symmetries",
    "C123_matsubara_loop_keeps_symmetries",
    "C123_finite_temperature_loop_keeps_symmetries",
    "C123_matsubara_flow_keeps_symmetries",
    "C123_finite_temperature_flow_keeps_symmetries",
    "C123_matsubara_derivatives",
    "C123_matsubara_derivatives_other_regulators"
   ],
   "note": "PARTIAL: proved in the Keldysh basis with all entries computed (DEBUG_SYMMETRIES 1) for regulator 2 in equilibrium, and in the Matsubara formalism at zero and finite temperature for regulators 2, 3 and 4; the derivative relations are proved for regulator 2 (Keldysh) and regulators 2, 3, 4 (Matsubara), the equilibrium relations of the Keldysh propagators as stated; missing: contour basis, other regulators in the Keldysh formalism, SELF_ENERGY_FLOW_CORRECTIONS 2, interpolation on the grid and the analytic tails of the loop integral."
  },
  {
   "property": "C124",
   "status": "proved",
   "theorems": [
    "C124_outer_sum_is_inner_sum",
    "C124_left_out_components_vanish"
   ],
   "note": "The integral is any linear functional; that it vanishes for two lines analytic in the same half plane is a hypothesis (satisfied by the exact integral, the code integrates over a finite range)."
  },
  {
   "property": "C125",
   "status": "partial",
   "theorems": [
    "C125_each_contribution_is_the_diagram_partial",
    "C125_versions_agree_partial"
   ],
   "note": "Proved for the Keldysh basis with DEBUG_SYMMETRIES 1 (default), without the Hartree term; missing: contour basis, Matsubara formalism, version 3"
  },
  {
   "property": "C126",
   "status": "partial",
   "theorems": [
    "C126_matsubara_anderson_partial",
    "C126_matsubara_SDE_keeps_symmetries",
    "C126_matsubara_iterations_partial",
    "C126_matsubara_particle_hole_refuted",
    "C126_matsubara_SDE_bubble_symmetric",
    "C126_SDE_keeps_symmetries_partial",
    "C126_iteration_keeps_symmetries_partial",
    "C126_solver_keeps_symmetries_partial",
    "C126_SDE_bubble_symmetric_partial"
   ],
   "note": "REFUTED: with particle-hole symmetry in the Matsubara formalism compute_SDE sets the asymptotic value U/2, which is added to the stored imaginary part, so the result is not odd (C126_matsubara_particle_hole_refuted). PARTIAL: Keldysh basis with DEBUG_SYMMETRIES 1 and versions 1 and 2; Matsubara formalism at zero temperature without particle-hole symmetry, with linear mixing and Anderson acceleration (what versions 1 and 2 compute before the constant is set keeps the symmetries in general). Missing: contour basis, finite temperature, reduced storage, version 3."
  },
  {
   "property": "C127",
   "status": "partial",
   "theorems": [
    "C127_contributions_partial",
    "C127_version3_partial",
    "C127_hartree_twice_refuted",
    "C127_vectorisation_refuted"
   ],
   "note": "REFUTED: the Hartree diagram is included although compute_SDE adds it again, and the retarded component depends on the vectorisation of the loop. PARTIAL: what is returned is the Hartree diagram plus the one-sided diagram (mirrored for the retarded component of the vectorised loop); at half filling the Hartree diagram vanishes. Keldysh basis, DEBUG_SYMMETRIES 1 only."
  },
  {
   "property": "C128",
   "status": "partial",
   "theorems": [
    "C128_derivative_partial"
   ],
   "note": "PARTIAL: Keldysh basis, DEBUG_SYMMETRIES 1; derivatives of vertex and propagator are inputs."
  },
  {
   "property": "C129",
   "status": "partial",
   "theorems": [
    "C129_simpson_partial",
    "C129_cubic_partial",
    "C129_even_refuted",
    "C129_double_refuted",
    "C129_riemann_partial"
   ],
   "note": "REFUTED: an even number of points loses a third of the last step (constants already wrong); for Q = double the sum starts from an indeterminate value. PARTIAL: complex integrands, odd N or N < 3 (which means 3); trapezoidal sum for complex integrands."
  },
  {
   "property": "C13",
   "status": "proved",
   "theorems": [
    "C13_keldysh_index_roundtrip",
    "C13_keldysh_tuple_roundtrip",
    "C13_keldysh_index_digits"
   ],
   "note": ""
  },
  {
   "property": "C130",
   "status": "partial",
   "theorems": [
    "C130_one_feature",
    "C130_one_feature_cubic",
    "C130_two_features_partial",
    "C130_two_features_cubic_partial",
    "C130_boundary_refuted"
   ],
   "note": "REFUTED: with features within Delta of the upper boundary the middle interval gets N points without making N odd. PARTIAL: features further away, or N odd; one feature: everywhere. Complex integrands."
  },
  {
   "property": "C131",
   "status": "partial",
   "theorems": [
    "C131_adaptive_partial",
    "C131_cubic_partial",
    "C131_first_splits_refuted",
    "C131_missed_feature_refuted"
   ],
   "note": "REFUTED: the tests of the total and of all intervals do not wait for the first splits; an integrand vanishing at five equidistant points is integrated to zero. PARTIAL: termination, number of evaluations, partition, exactness for cubics."
  },
  {
   "property": "C132",
   "status": "partial",
   "theorems": [
    "C132_no_false_alarm_partial",
    "C132_exchange_detected_partial",
    "C132_conjugation_missed_refuted",
    "C132_file_refuted",
    "C132_compared_entry_partial"
   ],
   "note": "REFUTED: components related only by complex conjugation in combination with a Keldysh index change are not compared, so a vertex violating it has zero deviation everywhere (C132_conjugation_missed_refuted); a vanishing class gives a factor 1/0 in the file (C132_file_refuted). PARTIAL: a physical, time-reversible vertex that is its own mirror image causes no deviation (Keldysh basis or Matsubara, no SBE decomposition, frequencies inside the boxes); a vanishing deviation of a spin-1 entry of the channels a and t (Keldysh) implies the exchange relation to spin 0 of the other channel. With particle-hole symmetry every spin-0 entry away from zero frequencies is compared, up to sign and conjugation, with the entry whose deciding frequencies are negative (C132_compared_entry_partial)."
  },
  {
   "property": "C133",
   "status": "partial",
   "theorems": [
    "C133_bounds_partial",
    "C133_scale_invariant",
    "C133_constant_refuted",
    "C133_zero_data_refuted",
    "C133_exact_partial",
    "C133_one_axis"
   ],
   "note": "REFUTED: data that are constant along the frequency but differ between two components have positive slope and curvature, since the differences reach across component boundaries (C133_constant_refuted); for vanishing data the curvature is 0/0 with two or three frequencies (C133_zero_data_refuted). PARTIAL: at least two steps (one step for the slope) from the ends of the frequency axes the measures are upper bounds of the squared norm of Hessian (gradient) relative to the maximum (C133_bounds_partial); invariance under multiplication by a complex number holds in general (C133_scale_invariant). The exact values are the maxima of the differences of the table read as one row (C133_exact_partial), which for a single axis are the differences along that axis (C133_one_axis)."
  },
  {
   "property": "C134",
   "status": "partial",
   "theorems": [
    "C134_vectorised_partial",
    "C134_agree_partial",
    "C134_quadrature_weights_refuted",
    "C134_sector_partial",
    "C134_rest_zero_partial",
    "C134_range_partial",
    "C134_edge_refuted"
   ],
   "note": "REFUTED: for transfer frequencies 2 pi T times an odd number the scalar version leaves the entries with the largest fermionic frequency zero, the vectorised one evaluates them (C134_edge_refuted); with ANALYTIC_TAILS 0 the scalar version weighs the tails twice as much as the vectorised one (C134_quadrature_weights_refuted). PARTIAL: with analytic tails all entries have the value of the sum plus tail at their own frequencies, scalar and vectorised agree on all other entries, the range is symmetric under exchange of the propagators, without DEBUG_SYMMETRIES the whole sector that symmetrisation relies on is evaluated and the rest is zero. Real values (particle-hole symmetry); the correctness of the tail formula itself is C113."
  },
  {
   "property": "C135",
   "status": "partial",
   "theorems": [
    "C135_implementations_agree",
    "C135_spin_sum",
    "C135_bubble_partial",
    "C135_irreducible_left",
    "C135_projections",
    "C135_projection_kept",
    "C135_rebuilt_channels",
    "C135_differentiated_rebuilding",
    "C135_channel_value_partial",
    "C135_channel_value_refuted"
   ],
   "note": "REFUTED: valsmooth_symmetry_expanded<k3_sbe> (r_vertex.hpp:527) returns zero, so the value of a channel entering the bubbles of the other channels lacks lambda w lambdabar (witness C135_channel_value_refuted; C135_channel_value_partial gives the exact difference). PARTIAL: the bubble theorem is for undifferentiated vertices at fixed transfer frequency without interpolation, MAX_DIAG_CLASS 3, all spin components computed; for the spin-1 component of the p channel it assumes crossing symmetry of the inserted vertex. Keldysh matrices and numbers are instances of the ring."
  },
  {
   "property": "C136",
   "status": "proved",
   "theorems": [
    "C136_same_step",
    "C136_solver_end",
    "C136_solver_integrates",
    "C136_linear_step"
   ],
   "note": "The call of postRKstep_stuff in line 106 of ODE_solvers.hpp lacks the argument rhs, so ODE_solver_RK4 cannot be instantiated as it stands; the loop is modelled with the argument added, RK4_step as it stands."
  },
  {
   "property": "C137",
   "status": "partial",
   "theorems": [
    "C137_no_false_alarm",
    "C137_detects_partial",
    "C137_first_index_refuted",
    "C137_nan_refuted"
   ],
   "note": "REFUTED: with two internal indices the deviation of the first one is overwritten and 0 is printed although the relation fails at every point (C137_first_index_refuted); values that are not numbers are reported as deviation 0 (C137_nan_refuted). PARTIAL: no false alarm in general; for one internal index and finite values the printed number is the largest deviation and 0 means that the symmetry holds."
  },
  {
   "property": "C138",
   "status": "proved",
   "theorems": [
    "C138_text_file_is_table",
    "C138_h5_file_holds_vectors"
   ],
   "note": "Text and HDF5 output for all inputs; the precision of the printed numbers, names with a slash and file system errors are not modelled."
  },
  {
   "property": "C14",
   "status": "proved",
   "theorems": [
    "C14_rotate_then_unrotate",
    "C14_unrotate_then_rotate",
    "C14_left_vertex_row_column",
    "C14_right_vertex_row_column",
    "C14_indices_sum_legs",
    "C14_left_right_of_result",
    "C14_vectorised_product_is_diagram",
    "C14_scalar_product_is_diagram"
   ],
   "note": "Frequencies fixed; vertices are arbitrary functions of the Keldysh component."
  },
  {
   "property": "C15",
   "status": "proved",
   "theorems": [
    "C15_component_is_product_of_lines",
    "C15_unlisted_components_vanish",
    "C15_listed_components_occur",
    "C15_scalar_and_vectorised_agree",
    "C15_vectorised_contour_basis",
    "C15_sum_over_listed_components_suffices"
   ],
   "note": "Exact arithmetic; the published list is for the Keldysh basis."
  },
  {
   "property": "C16",
   "status": "proved",
   "theorems": [
    "C16_differentiated_bubble_is_derivative",
    "C16_vectorised_differentiated_bubble_is_derivative"
   ],
   "note": "Along G+tS the bubble is a quadratic polynomial in t whose linear coefficient is the differentiated bubble."
  },
  {
   "property": "C17",
   "status": "proved",
   "theorems": [
    "C17_leg_exchanges_involutive",
    "C17_conjugation_reversals_involutive",
    "C17_leg_exchanges_commute",
    "C17_conjugation_exchanges_the_exchanges",
    "C17_reversals_commute",
    "C17_composite_is_composition",
    "C17_unknown_code_is_an_error"
   ],
   "note": "All elementary operations are involutions, the leg exchanges commute, conjugation exchanges them, reversals commute with everything; every composite code equals the composition named by its digits, other codes are errors. Keldysh, T=0 and finite-T Matsubara including the rounding correction."
  },
  {
   "property": "C18",
   "status": "proved",
   "theorems": [
    "C18_T1_exchanges_incoming_legs",
    "C18_T2_exchanges_outgoing_legs",
    "C18_TC_exchanges_in_and_out_keldysh",
    "C18_TC_exchanges_in_and_out_matsubara",
    "C18_Tph_reverses_frequencies",
    "C18_TR_reverses_matsubara_frequencies"
   ],
   "note": "Effect on leg frequencies, leg Keldysh indices, spin, sign and conjugation for every operation in every channel and formalism."
  },
  {
   "property": "C19",
   "status": "proved",
   "theorems": [
    "C19_vanishing_components",
    "C19_labels_are_orbits",
    "C19_transformations_lead_to_stored_data"
   ],
   "note": "Statement made precise: vanishing by causality, labels are orbits, table leads to stored data with the same label. CONTOUR_BASIS tables do not compile and are not modelled."
  },
  {
   "property": "C20",
   "status": "proved",
   "theorems": [
    "C20_point_reduces_to_stored_sector",
    "C20_entries_from_original_data",
    "C20_order_independent",
    "C20_idempotent",
    "C20_entry_value"
   ],
   "note": "All classes and channels (K2b is not stored). Points must lie in the frequency box and be pairwise different."
  },
  {
   "property": "C21",
   "status": "proved",
   "theorems": [
    "C21_same_four_legs",
    "C21_forth_and_back",
    "C21_via_third_channel",
    "C21_from_leg_frequencies"
   ],
   "note": "Also the conversion from leg frequencies."
  },
  {
   "property": "C22",
   "status": "proved",
   "theorems": [
    "C22_parity_and_legs",
    "C22_forth_and_back",
    "C22_via_third_channel",
    "C22_legs_exist"
   ],
   "note": "Parity, legs, inverse, composition."
  },
  {
   "property": "C23",
   "status": "partial",
   "theorems": [
    "C23_legs_to_a_refuted",
    "C23_legs_to_a_always_wrong_refuted",
    "C23_legs_to_channel_partial",
    "C23_agrees_with_channel_conversion_partial"
   ],
   "note": "REFUTED: the a conversion from leg frequencies is wrong for every transfer frequency other than 0 and 2 (r_vertex.hpp transfToR). p and t are proved correct."
  },
  {
   "property": "C24",
   "status": "proved",
   "theorems": [
    "C24_value_is_left_same_plus_left_different",
    "C24_value_is_right_same_plus_right_different",
    "C24_expanded_decomposition",
    "C24_same_parts_ignore_their_own_frequency"
   ],
   "note": "Default decomposition; the accessors with SBE_DECOMPOSITION assert(false). Both accessor families."
  },
  {
   "property": "C25",
   "status": "proved",
   "theorems": [
    "C25_result",
    "C25_independent",
    "C25_each_item_once",
    "C25_superfluous_zero"
   ],
   "note": "Result of any distribution (processes, tasks, thread order) equals the sequential array; each item once; surplus zeros; all buffer accesses in bounds."
  },
  {
   "property": "C26",
   "status": "partial",
   "theorems": [
    "C26_several_internal_refuted",
    "C26_keldysh_partial",
    "C26_matsubara_partial",
    "C26_end_to_end_partial"
   ],
   "note": "REFUTED: with more than one internal index the vectorised Keldysh results are stored at task*16+k, which is not their physical position. Partial theorems: correct for one internal index, all shapes and classes, Keldysh and Matsubara, and end to end through the distribution."
  },
  {
   "property": "C27",
   "status": "proved",
   "theorems": [
    "C27_ceil_division",
    "C27_floor_division",
    "C27_division_rejects_nonpositive",
    "C27_floor_to_even",
    "C27_ceil_to_even",
    "C27_double_floor_on_integers",
    "C27_double_ceil_on_integers",
    "C27_halves_of_bosonic",
    "C27_round_to_even",
    "C27_round_to_odd",
    "C27_even_fixed",
    "C27_odd_fixed",
    "C27_round_away_from_zero",
    "C27_tolerant_integers",
    "C27_myround_between",
    "C27_sign_flip"
   ],
   "note": "double rounding functions for all rationals; int functions for all integers without overflow"
  },
  {
   "property": "C28",
   "status": "proved",
   "theorems": [
    "C28_natural_of_bosonic",
    "C28_bosonic_of_natural",
    "C28_bosonic_are_transfer_frequencies"
   ],
   "note": ""
  },
  {
   "property": "C29",
   "status": "proved",
   "theorems": [
    "C29_terminates_in_range",
    "C29_enclosing_cell",
    "C29_member",
    "C29_fuel_exists"
   ],
   "note": "any array, also NaN as argument; fuel 2^k >= range proved sufficient"
  },
  {
   "property": "C30",
   "status": "partial",
   "theorems": [
    "C30_v1_partial",
    "C30_v2_partial",
    "C30_v4_partial",
    "C30_linear_partial",
    "C30_v3_refuted",
    "C30_v3_partial"
   ],
   "note": "REFUTED for the zero-temperature self-energy mapping: frequencies closer than 1e-12 to the centre are all mapped to 0. The other mappings (v1, v2, v4, linear) are proved to be odd increasing inverse pairs; for v3 the exact statement away from the centre and the error bound are proved."
  },
  {
   "property": "C31",
   "status": "proved",
   "theorems": [
    "C31_invertible",
    "C31_end_points",
    "C31_joins"
   ],
   "note": "All ordered section boundaries: inverse pair, end points, joins of value and slope."
  },
  {
   "property": "C32",
   "status": "partial",
   "theorems": [
    "C32_selfenergy_refuted",
    "C32_top_refuted",
    "C32_other_partial"
   ],
   "note": "REFUTED: the first boundary of the self-energy grid is the constant 25 instead of a multiple of the scale, so the order fails for scales up to 25/27, and then the last grid point is not the upper frequency. All other grid kinds, and larger scales, are proved."
  },
  {
   "property": "C33",
   "status": "partial",
   "theorems": [
    "C33_upper_end_refuted",
    "C33_below_upper_partial",
    "C33_correction_partial",
    "C33_hybrid_partial"
   ],
   "note": "REFUTED at the upper end: the element behind the last is read for every frequency from the upper limit on, although the box test accepts such frequencies. Proved below the upper limit, for the correction step, and for the hybrid grid (up to the 1e-12 added before truncation). Rounding is not modelled."
  },
  {
   "property": "C34",
   "status": "partial",
   "theorems": [
    "C34_centre_refuted",
    "C34_negative_centre_refuted",
    "C34_centred_partial"
   ],
   "note": "REFUTED for grids whose centre is not zero (frequencies outside accepted for positive, grid points rejected for negative centre); exact for symmetric grids centred at zero."
  },
  {
   "property": "C35",
   "status": "partial",
   "theorems": [
    "C35_negative_refuted",
    "C35_duplicate_refuted",
    "C35_below_refuted",
    "C35_order_content_partial",
    "C35_new_checkpoints_partial"
   ],
   "note": "REFUTED: a negative checkpoint drops all later ones; a checkpoint equal to a grid point is duplicated; a checkpoint below the final value extends the grid. Proved: order, first point and exact content in general, and the full statement for new distinct non-negative checkpoints not below the final value."
  },
  {
   "property": "C36",
   "status": "proved",
   "theorems": [
    "C36_exp",
    "C36_log",
    "C36_sqrt",
    "C36_linear",
    "C36_substitutions"
   ],
   "note": "exp, log, sqrt and linear parametrisation and the two substitutions."
  },
  {
   "property": "C37",
   "status": "proved",
   "theorems": [
    "C37_cash_karp_order",
    "C37_rk4_order",
    "C37_bogacki_shampine_order",
    "C37_nodes",
    "C37_wellformed"
   ],
   "note": "order conditions for all rooted trees up to the documented order, sharpness, row sums, array bounds; Q, closed"
  },
  {
   "property": "C38",
   "status": "proved",
   "theorems": [
    "C38_cash_karp_exact",
    "C38_rk4_exact",
    "C38_bogacki_shampine_exact",
    "C38_cash_karp_linear",
    "C38_combination"
   ],
   "note": "exact for all polynomials below the order and any step, error estimate vanishes, linear equations, linear combination; Q, closed"
  },
  {
   "property": "C39",
   "status": "partial",
   "theorems": [
    "C39_accepted_partial",
    "C39_next_partial",
    "C39_infinite_error_refuted"
   ],
   "note": "REFUTED for an infinite error estimate at the minimal step (suggested next step is 0). Proved for all other error histories."
  },
  {
   "property": "C40",
   "status": "partial",
   "theorems": [
    "C40_limit_ignored_refuted",
    "C40_more_reductions_refuted",
    "C40_nan_refuted",
    "C40_terminates_partial"
   ],
   "note": "REFUTED: the counter is never incremented, the configured limit has no effect; NaN estimate never returns. Proved: bound from the ratio of attempted to minimal step if no estimate is NaN."
  },
  {
   "property": "C41",
   "status": "partial",
   "theorems": [
    "C41_no_checkpoints_partial",
    "C41_parametrisations_partial",
    "C41_overshoot_refuted",
    "C41_negative_end_refuted",
    "C41_exhausted_refuted"
   ],
   "note": "REFUTED: checkpoint near the end overshoots; negative end point reported as finished at once; exhaustion of steps is silent. Proved without checkpoints for positive end point, all parametrisations."
  },
  {
   "property": "C42",
   "status": "partial",
   "theorems": [
    "C42_no_crossing_partial",
    "C42_order_refuted",
    "C42_last_trial_refuted",
    "C42_zero_trials_refuted",
    "C42_trials_partial"
   ],
   "note": "REFUTED: success in the last allowed trial is reported as failure, checkpoints in increasing order are passed, zero trials hand over a failed step. Proved: decreasing checkpoints are never passed beyond the tolerance; trials bounded."
  },
  {
   "property": "C43",
   "status": "partial",
   "theorems": [
    "C43_weights_partial",
    "C43_between_partial",
    "C43_grid_points_partial",
    "C43_multiaffine_partial",
    "C43_faces",
    "C43_templates",
    "C43_hybrid",
    "C43_last_point_refuted",
    "C43_below_lowest_refuted"
   ],
   "note": "REFUTED: the last grid point of an axis is inside the box but the index search reads behind the frequency vector; just below the lowest grid point (within the tolerance of the box test) the result leaves the range of the data. Proved: weights, value between the corner values, exactness at grid points and for multiaffine functions on [lower, upper), agreement on common faces, templates, hybrid grids including the last point"
  },
  {
   "property": "C44",
   "status": "partial",
   "theorems": [
    "C44_outside_zero",
    "C44_grid_points",
    "C44_se_joins_partial",
    "C44_se_power_refuted",
    "C44_k1_partial",
    "C44_k1_upper_edge_refuted",
    "C44_fermionic_partial",
    "C44_bosonic_refuted"
   ],
   "note": "REFUTED: K1 continues the lower-edge value on both sides, K2 and K3 drop to zero beyond the bosonic range, the self-energy decays with 1/w instead of the documented w^-2. Proved: zero outside the box in Keldysh and zero-temperature formalism, stored values at all grid points of dense grids, self-energy tail joins both edges, fermionic v^-2 tails"
  },
  {
   "property": "C45",
   "status": "proved",
   "theorems": [
    "C45_ends_1D",
    "C45_cubic_1D",
    "C45_smooth_1D",
    "C45_edges_2D",
    "C45_corners_2D",
    "C45_cubic_2D",
    "C45_faces_3D",
    "C45_corners_3D",
    "C45_cubic_3D"
   ],
   "note": "arithmetic of one cell; the code which would fill the derivative arrays calls get_deriv_x() without its argument and does not compile, so it is not modelled"
  },
  {
   "property": "C46",
   "status": "proved",
   "theorems": [
    "C46_outside",
    "C46_inside",
    "C46_linear"
   ],
   "note": "Keldysh formalism; complex values as pairs of reals"
  },
  {
   "property": "C47",
   "status": "proved",
   "theorems": [
    "C47_componentwise",
    "C47_laws",
    "C47_commutative",
    "C47_evaluation"
   ],
   "note": "States with symmetric vertices (the only ones a state contains). Evaluation: interpolation of every buffer, on common grids; for the self-energy see also C46_linear."
  },
  {
   "property": "C48",
   "status": "partial",
   "theorems": [
    "C48_selfenergy_partial",
    "C48_vertex_refuted"
   ],
   "note": "REFUTED: only the self-energy data is replaced by its absolute value; the lambda expressions for the vertex take the buffers by value and the asymptotic value and irreducible vertex are forgotten."
  },
  {
   "property": "C49",
   "status": "partial",
   "theorems": [
    "C49_empty_rejected",
    "C49_sum_one",
    "C49_combination",
    "C49_agreement",
    "C49_minimal",
    "C49_defined",
    "C49_single_fixed_point_partial",
    "C49_fixed_points_refuted",
    "C49_repeated_step_refuted"
   ],
   "note": "REFUTED: a history of two or more identical fixed points (or any repeated step) gives a singular normal matrix and an undefined combination instead of the fixed point. Proved: empty history rejected, coefficients add up to one, the result is the stated combination, minimality of the residual whenever the inverse routine inverts, single-entry histories keep a fixed point. The matrix inversion is a parameter."
  },
  {
   "property": "C50",
   "status": "partial",
   "theorems": [
    "C50_ordered",
    "C50_bracketed",
    "C50_minimum_enclosed",
    "C50_gave_up",
    "C50_constant_refuted"
   ],
   "note": "REFUTED: for a constant cost the phase ends normally although the middle value is not below both ends. Proved: order 0 < a < m < b in every pass, the enclosing inequalities and enclosure of a minimum for continuous costs whenever it ends by the loop condition."
  },
  {
   "property": "C51",
   "status": "partial",
   "theorems": [
    "C51_parabola_refuted",
    "C51_cycle_refuted",
    "C51_no_ties_partial"
   ],
   "note": "REFUTED: for the parabola (x - 3/2)^2 started from (1,2,3) the passes form a cycle and the phase never ends; so does every cost with equal values at the left end and the middle which rises to both sides. Proved part: it ends with an enclosed minimum for costs without ties that rise somewhere along the halved left ends and the enlarged right ends."
  },
  {
   "property": "C52",
   "status": "partial",
   "theorems": [
    "C52_iterations",
    "C52_terminates",
    "C52_mixing",
    "C52_rule",
    "C52_result",
    "C52_success_partial",
    "C52_nan_refuted"
   ],
   "note": "REFUTED: relative changes that are not numbers count as converged. Proved: bounds on the iterations, termination, limits of the mixing ratio and the rule by which it is reduced, the returned state, and the meaning of success for numeric changes."
  },
  {
   "property": "C53",
   "status": "partial",
   "theorems": [
    "C53_found",
    "C53_encloses",
    "C53_terminates",
    "C53_nan_refuted",
    "C53_large_threshold"
   ],
   "note": "REFUTED: a right-hand side that is not a number is returned as an exact solution (filling 1/2). Proved for all numeric right-hand sides: halving, enclosure of a solution, residual below the threshold, value U times filling, termination with an explicit bound for Lipschitz continuous right-hand sides."
  },
  {
   "property": "C54",
   "status": "proved",
   "theorems": [
    "C54_area",
    "C54_lobatto",
    "C54_kronrod",
    "C54_sharp",
    "C54_thirteen"
   ],
   "note": "For the code's nodes and weights without rounding; sharpness of both rules included."
  },
  {
   "property": "C55",
   "status": "proved",
   "theorems": [
    "C55_partition",
    "C55_polynomials",
    "C55_terminates",
    "C55_always_ends"
   ],
   "note": "For real integrands without rounding; complex integrands differ only in the absolute value used in comparisons."
  },
  {
   "property": "C56",
   "status": "partial",
   "theorems": [
    "C56_reversed_refuted",
    "C56_small_refuted",
    "C56_empty_partial",
    "C56_forward_partial"
   ],
   "note": "REFUTED: a reversed interval gives 0 for every integrand, and integrands with a first estimate below 1e-20 (for example small constants) are integrated to 0. Proved: empty intervals give 0, polynomials on forward intervals have the right sign and value."
  },
  {
   "property": "C57",
   "status": "partial",
   "theorems": [
    "C57_hull",
    "C57_inside_partial",
    "C57_outside_refuted",
    "C57_no_intervals_refuted",
    "C57_T0_degenerate_refuted"
   ],
   "note": "REFUTED: features whose window sticks out of [a,b] enlarge the domain (witness and general theorem for increasing primitives); zero-temperature version and list version access memory before their vectors if no interval exists. Proved: with tails the whole line is covered exactly; result is the integral between smallest and largest point; equal to [a,b] if the windows lie inside. Integration on single intervals is a parameter assumed exact (see C54-C56 for it)."
  },
  {
   "property": "C58",
   "status": "partial",
   "theorems": [
    "C58_retarded",
    "C58_keldysh",
    "C58_matsubara",
    "C58_single_scale",
    "C58_extension",
    "C58_sigma_K",
    "C58_asymptotic_value_refuted",
    "C58_tiny_frequency_refuted"
   ],
   "note": "Proved as derivatives over R for the retarded, Keldysh and Matsubara components of every regulator, and for the Katanin extension and the Sigma_K term of the temperature flow. REFUTED: for the interaction regulator (4) the code treats the Hartree value inside the propagator as fixed, so the value differs from the derivative if that asymptotic value is not zero; for the frequency regulator (3) the switched-off branch at tiny frequencies is not the derivative."
  },
  {
   "property": "C59",
   "status": "partial",
   "theorems": [
    "C59_general",
    "C59_equilibrium",
    "C59_single_scale",
    "C59_katanin",
    "C59_temperature",
    "C59_imaginary",
    "C59_KMS",
    "C59_regulators_refuted"
   ],
   "note": "Proved: in equilibrium all components satisfy the relation (regulators 2-4 at temperature T, 5 at temperature Lambda from the self-energy components), the Katanin extension inherits it, and lesser and greater functions are related by the Boltzmann factor. REFUTED for the formula with components and regulator 4: it uses the hybridisation Gamma+Lambda of regulator 2."
  },
  {
   "property": "C60",
   "status": "partial",
   "theorems": [
    "C60_hybridisation",
    "C60_temperature",
    "C60_interaction",
    "C60_frequency_partial",
    "C60_frequency_refuted"
   ],
   "note": "Proved for regulators 2 (with a bound on the modulus), 4 and 5, and for 3 if the level is at zero. REFUTED for regulator 3 with a level: the imaginary part can be positive and the denominator zero for a causal self-energy."
  },
  {
   "property": "C61",
   "status": "proved",
   "theorems": [
    "C61_rotation",
    "C61_redundancy",
    "C61_components",
    "C61_injective"
   ],
   "note": "All four types of propagators, scalar and vectorised access."
  },
  {
   "property": "C62",
   "status": "proved",
   "theorems": [
    "C62_history",
    "C62_out_of_range"
   ],
   "note": "All histories of saving (write_state_to_hdf then any add_state_to_hdf calls) over all layers, classes of vertices and grid kinds; data abstract; states whose number of grid points is the one the grid constructor chooses (the stored number is read but not used)."
  },
  {
   "property": "C63",
   "status": "partial",
   "theorems": [
    "C63_append_refuted",
    "C63_append_layer_refuted",
    "C63_converged_refuted",
    "C63_restart_refuted",
    "C63_parquet_refuted",
    "C63_first_partial",
    "C63_resume_partial",
    "C63_parquet_partial"
   ],
   "note": "REFUTED: appending to a missing file throws; the underlying function leaves a file reported as complete that cannot be read; creating a file with is_converged=true creates the attribute twice, throws and leaves an unreadable file reported as converged; the restarting overload of n_loop_flow truncates the file and stops with an exception after its first step for start layers >= 1; the parquet solver truncates the file on continuation. PARTIAL: first and continued runs of n_loop_flow keep all layers, a first parquet run stores the last five iterates."
  },
  {
   "property": "C64",
   "status": "partial",
   "theorems": [
    "C64_refuted",
    "C64_partial",
    "C64_resume_partial"
   ],
   "note": "REFUTED: nODE_ (stored as int, read into a double attribute buffer), epsODE_abs/epsODE_rel (never stored), save_intermediateResults and number_of_nodes are not restored. PARTIAL: U, T, Gamma, epsilon and loop number are those of the state that created the file; continued flows set nODE and tolerances from their own configuration."
  },
  {
   "property": "C65",
   "status": "partial",
   "theorems": [
    "C65_refuted",
    "C65_last_partial",
    "C65_kept_partial",
    "C65_distinct_partial",
    "C65_sopt_partial",
    "C65_topt_partial",
    "C65_fopt_partial",
    "C65_topt_refuted"
   ],
   "note": "REFUTED: a call of the bubble function overwrites the classes it computes; the vertices of third and fourth order therefore contain only the last diagram of each channel. PARTIAL: the last call computing a component decides, other components are kept, calls with disjoint components are all contained; exact contents of sopt, topt and fopt vertices."
  },
  {
   "property": "C66",
   "status": "partial",
   "theorems": [
    "C66_multiloop_partial",
    "C66_bounds",
    "C66_stop_partial",
    "C66_refuted"
   ],
   "note": "REFUTED: a self-energy norm that is not a number ends the iteration although nothing is within tolerance. PARTIAL: result is the sum of the multiloop contributions up to the first negligible order >= 3 or the requested one, iteration counts are bounded, and without NaN early stops are justified."
  },
  {
   "property": "C67",
   "status": "proved",
   "theorems": [
    "C67_bubble_frequencies",
    "C67_bubble_frequencies_matsubara"
   ],
   "note": "real-frequency/T=0 and finite-T Matsubara branches, scalar and template versions agree"
  },
  {
   "property": "C68",
   "status": "partial",
   "theorems": [
    "C68_flow_partial",
    "C68_flow_apart_partial",
    "C68_parquet_partial",
    "C68_perturbation_partial",
    "C68_flow_distinct_partial",
    "C68_temperature_refuted",
    "C68_start_refuted",
    "C68_gate_refuted",
    "C68_interaction_refuted",
    "C68_calls_partial",
    "C68_gate_value_partial",
    "C68_pt2_flow_partial",
    "C68_scale_refuted",
    "C68_digits_refuted"
   ],
   "note": "REFUTED: in the default build (DEBUG_SYMMETRIES 1) runs at different temperatures write the parquet starting point to one file, and a later run loads the converged one of an earlier temperature; with symmetries used the same holds for different gate voltages, because the directory name never contains eVg (#ifndef of a macro that is always defined); all files coincide for different U in the default build and for temperatures equal to six decimals; the initial scale enters the name by its integer part only. PARTIAL: exact conditions under which the result files of flows, parquet runs and perturbation theory coincide; the files of one flow are pairwise different; the values in the names and the files of a flow starting from second-order perturbation theory explicitly."
  },
  {
   "property": "C69",
   "status": "partial",
   "theorems": [
    "C69_release_access_not_rejected_refuted"
   ],
   "note": "REFUTED: with NDEBUG no check is compiled and the access aliases another element"
  },
  {
   "property": "C70",
   "status": "partial",
   "theorems": [
    "C70_parallel_reduction_refuted",
    "C70_serial_reduction_partial"
   ],
   "note": "REFUTED: unsynchronised read-modify-write loses elements; correct for a single thread"
  },
  {
   "property": "C71",
   "status": "proved",
   "theorems": [
    "C71_uniform_stencil_exact",
    "C71_lagrange_nodes"
   ],
   "note": "Exact rational arithmetic."
  },
  {
   "property": "C72",
   "status": "partial",
   "theorems": [
    "C72_own_element_scalar_refuted",
    "C72_last_element_scalar_partial"
   ],
   "note": "REFUTED: the scalar is passed by reference and re-read after it has been overwritten."
  },
  {
   "property": "C73",
   "status": "partial",
   "theorems": [
    "C73_max_norm_partial",
    "C73_max_norm_hides_nan_refuted"
   ],
   "note": "REFUTED for NaN: std::max(out, NaN) keeps out; proved for finite elements."
  },
  {
   "property": "C74",
   "status": "proved",
   "theorems": [
    "C74_spin_sum_a_t",
    "C74_spin_sum_scalar_a_t",
    "C74_spin_sum_p"
   ],
   "note": ""
  },
  {
   "property": "C75",
   "status": "proved",
   "theorems": [
    "C75_sbe_product_joins_legs"
   ],
   "note": "Code of SBE_DECOMPOSITION 1; Keldysh structure at fixed frequencies."
  },
  {
   "property": "C76",
   "status": "partial",
   "theorems": [
    "C76_tolerance_refuted",
    "C76_rounding_partial"
   ],
   "note": "REFUTED: an argument slightly below an even number aborts in floor2bfreq (slightly above: ceil2bfreq) because the tolerance-rounded result violates the assertion result<=w; the part outside the tolerance window is proved"
  },
  {
   "property": "C77",
   "status": "partial",
   "theorems": [
    "C77_full_vertex_decomposition_partial",
    "C77_r_irreducible_decomposition_partial",
    "C77_differentiated_parts_partial",
    "C77_r_irreducible_class1_refuted"
   ],
   "note": "REFUTED: with MAX_DIAG_CLASS 1 the different part of an r-irreducible vertex is an uninitialised variable (vertex.hpp:1479-1565). Proved for full vertices at all truncations, for r-irreducible vertices from class 2 on; differentiated vertices contain only their own channel, as stated."
  },
  {
   "property": "C78",
   "status": "proved",
   "theorems": [
    "C78_measure_is_derivative"
   ],
   "note": "All four mappings, at every interior point."
  },
  {
   "property": "C79",
   "status": "partial",
   "theorems": [
    "C79_grid",
    "C79_set_upper",
    "C79_hybrid",
    "C79_hybrid_limit_refuted"
   ],
   "note": "REFUTED for purely positive hybrid grids after setting the upper frequency: the reported lower limit is minus the upper frequency. Proved for all other grids."
  },
  {
   "property": "C80",
   "status": "partial",
   "theorems": [
    "C80_update_refuted",
    "C80_update_partial"
   ],
   "note": "REFUTED for boundaries above the upper frequency; proved for boundaries below it."
  },
  {
   "property": "C81",
   "status": "proved",
   "theorems": [
    "C81_log_grid",
    "C81_sq_grid",
    "C81_with_checkpoints",
    "C81_step_sizes"
   ],
   "note": "log and square-root substitution, with and without checkpoints."
  },
  {
   "property": "C82",
   "status": "partial",
   "theorems": [
    "C82_checkpoints_partial",
    "C82_order_refuted"
   ],
   "note": "REFUTED for lists that are not ascending: the loop ends at the first interaction strength that is too large. Proved for ascending lists."
  },
  {
   "property": "C83",
   "status": "partial",
   "theorems": [
    "C83_growth_refuted",
    "C83_growth_partial"
   ],
   "note": "REFUTED: threshold pow(MAXGROW/SAFETY, PGROW) instead of its inverse exponent: a step with half the tolerated error is doubled, predicted error 16 times the tolerance. Proved above the threshold."
  },
  {
   "property": "C84",
   "status": "partial",
   "theorems": [
    "C84_nan_suggestion_refuted",
    "C84_hang_refuted",
    "C84_total_partial"
   ],
   "note": "REFUTED for the square-root parametrisation: NaN suggestion, after which neither step routine nor driver return. Proved for total parametrisations."
  },
  {
   "property": "C85",
   "status": "partial",
   "theorems": [
    "C85_resume_partial",
    "C85_upward_refuted",
    "C85_frozen_refuted"
   ],
   "note": "REFUTED: upward flow repeats the whole step; the other driver ignores suggestions for ever after the first checkpoint. Proved for downward flow of the default driver."
  },
  {
   "property": "C86",
   "status": "partial",
   "theorems": [
    "C86_restart_refuted",
    "C86_restart_partial"
   ],
   "note": "REFUTED: for increasing parametrisations (square root, exponential, linear) the first step of a continued downward flow points upwards and is replaced by the whole remaining interval. Proved when t grows along the flow."
  },
  {
   "property": "C87",
   "status": "partial",
   "theorems": [
    "C87_interior_partial",
    "C87_edges_refuted"
   ],
   "note": "REFUTED: in the first and last cell a point outside the grid is read. Proved: exact for cubics in all other cells"
  },
  {
   "property": "C88",
   "status": "partial",
   "theorems": [
    "C88_first_half_partial",
    "C88_second_half_refuted"
   ],
   "note": "REFUTED: the factor is added to the second half (vertex_half2 += alpha)."
  },
  {
   "property": "C89",
   "status": "partial",
   "theorems": [
    "C89_retarded_partial",
    "C89_keldysh_refuted",
    "C89_add_number_refuted"
   ],
   "note": "REFUTED: the Keldysh value is ignored and stored data are kept; adding a number does not change the asymptotic value. Proved: retarded value outside the box"
  },
  {
   "property": "C90",
   "status": "partial",
   "theorems": [
    "C90_max_norm_partial",
    "C90_unmeasured_refuted",
    "C90_two_norm_refuted"
   ],
   "note": "REFUTED: the 2-norm adds squares of complex numbers and vanishes for vertices of any size; the maximum norm ignores the irreducible part and K2b. Holds for the maximum norm and all measured components."
  },
  {
   "property": "C91",
   "status": "partial",
   "theorems": [
    "C91_shift_partial",
    "C91_shift_refuted",
    "C91_division",
    "C91_division_refuted"
   ],
   "note": "REFUTED: adding a number leaves the asymptotic value, division leaves the irreducible vertex unchanged. Holds for the rest."
  },
  {
   "property": "C92",
   "status": "partial",
   "theorems": [
    "C92_rejected_partial",
    "C92_third_grid_refuted",
    "C92_release_refuted"
   ],
   "note": "REFUTED: the third grid is never compared, and no grid is in a release build. Holds for the first two grids in debug builds."
  },
  {
   "property": "C93",
   "status": "proved",
   "theorems": [
    "C93_right_tie_unreachable",
    "C93_left_tie_ends"
   ],
   "note": "For all numeric cost functions and brackets."
  },
  {
   "property": "C94",
   "status": "partial",
   "theorems": [
    "C94_converged_refuted",
    "C94_no_file_refuted",
    "C94_resumed_partial",
    "C94_last_state_partial"
   ],
   "note": "REFUTED: a loaded converged result is reported as failure, and the last-state option without a file reads layer -1. Proved: continuation from the state of an unconverged file and return of the last state when one exists with index above 0."
  },
  {
   "property": "C95",
   "status": "partial",
   "theorems": [
    "C95_result_partial",
    "C95_endless_refuted"
   ],
   "note": "REFUTED: for the continuous right-hand side min(1, 5/4 - h) the iteration alternates between 1/2 and 3/4 for ever. Proved: when it ends the result reproduces itself up to the threshold."
  },
  {
   "property": "C96",
   "status": "partial",
   "theorems": [
    "C96_plateau_refuted",
    "C96_zero_partial"
   ],
   "note": "REFUTED: on every interval a plateau of any height between two nodes is integrated to exactly 0 without subdivision. Proved: the early zero is the only exception."
  },
  {
   "property": "C97",
   "status": "proved",
   "theorems": [
    "C97_upper",
    "C97_lower",
    "C97_range"
   ],
   "note": "Derivative of the composed primitive and values at the ends of the parameter range."
  },
  {
   "property": "C98",
   "status": "proved",
   "theorems": [
    "C98_points",
    "C98_defined",
    "C98_neighbours",
    "C98_ordered",
    "C98_covers",
    "C98_integral"
   ],
   "note": "integration over one interval and tails are parameters, assumed exact"
  },
  {
   "property": "C99",
   "status": "proved",
   "theorems": [
    "C99_sum",
    "C99_additive",
    "C99_negative_count",
    "C99_vectorised",
    "C99_agree"
   ],
   "note": "over R"
  }
 ]
}