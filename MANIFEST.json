{
 "claims": [
  {
   "property": "C01",
   "status": "proved",
   "theorems": [
    "C01_cell_refines_spec",
    "C01_get_hopping_latest",
    "C01_hermitian"
   ],
   "note": "All histories of cell operations; C01_get_hopping_latest reads the answer directly off the history."
  },
  {
   "property": "C02",
   "status": "proved",
   "theorems": [
    "C02_arrays"
   ],
   "note": "All histories with orbitals removed by valid numbers."
  },
  {
   "property": "C03",
   "status": "proved",
   "theorems": [
    "C03_remove_orbitals",
    "C03_order_and_multiplicity",
    "C03_negative_index_refuted"
   ],
   "note": "Valid numbers proved; negative numbers (outside the property, but accepted by the code) corrupt the hoppings: C03_negative_index_refuted."
  },
  {
   "property": "C04",
   "status": "partial",
   "theorems": [
    "C01_cell_refines_spec",
    "C04_rejected_calls_change_nothing",
    "C04_remove_orbitals_refuted"
   ],
   "note": "Proved for every mutator except remove_orbitals with an out-of-range number, for which the property is false of the code (C04_remove_orbitals_refuted)."
  },
  {
   "property": "C05",
   "status": "partial",
   "theorems": [
    "C05_locked_cell_cannot_change",
    "C05_locked_supercell",
    "C05_inter_lock",
    "C05_failed_constructor_refuted",
    "C05_inter_lock_refuted"
   ],
   "note": "Primitive cells and supercells: all mutator sequences. Inter-hopping containers: add_hopping only, since the removing methods ignore the lock (C05_inter_lock_refuted). The last clause is false of the code: a failed SuperCell constructor leaves its primitive cell locked (C05_failed_constructor_refuted)."
  },
  {
   "property": "C06",
   "status": "partial",
   "theorems": [
    "C06_fresh_partial",
    "C06_hash_refuted",
    "C06_supercell_partial",
    "C06_supercell_refuted",
    "C06_hash_values",
    "C06_hash_complex"
   ],
   "note": "All histories, under the condition that the hash of the present content is not that of an earlier different one (or the sync is forced). Without it the property is false of the code: hash(-1)==hash(-2) in CPython (C06_hash_refuted), and a supercell whose sync failed once is silently stale afterwards (C06_supercell_refuted)."
  },
  {
   "property": "C07",
   "status": "partial",
   "theorems": [
    "C07_bijection",
    "C07_int32_safe",
    "C07_int32_refuted"
   ],
   "note": "Partial: the statement is for every dimension, which is false of 32-bit arithmetic beyond 2^31 cells. Over unbounded integers for all sizes; the 32-bit arithmetic of the code is exact up to 2^31 cells (C07_int32_safe) and wraps beyond (C07_int32_refuted)."
  },
  {
   "property": "C08",
   "status": "proved",
   "theorems": [
    "C08_enumeration",
    "C08_num_orb",
    "C08_pc2sc",
    "C08_sc2pc",
    "C08_inverse",
    "C08_add_vacancies",
    "C08_add_vacancies_bad",
    "C08_set_vacancies_default_refuted"
   ],
   "note": "All histories of vacancy updates, including failing ones. Side finding: set_vacancies() with its default argument clears the vacancies and then raises TypeError."
  },
  {
   "property": "C09",
   "status": "proved",
   "theorems": [
    "C09_search",
    "C09_pc2sc_array",
    "C09_sc2pc_array"
   ],
   "note": ""
  },
  {
   "property": "C10",
   "status": "proved",
   "theorems": [
    "C10_wrap_div"
   ],
   "note": ""
  },
  {
   "property": "C11",
   "status": "proved",
   "theorems": [
    "C11_images",
    "C11_buffer"
   ],
   "note": "All primitive-cell histories, constructor arguments and vacancy/trim histories, any position modifier that keeps the number of orbitals."
  },
  {
   "property": "C12",
   "status": "proved",
   "theorems": [
    "C12_fast_general"
   ],
   "note": ""
  },
  {
   "property": "C13",
   "status": "proved",
   "theorems": [
    "C13_unambiguous"
   ],
   "note": ""
  },
  {
   "property": "C14",
   "status": "proved",
   "theorems": [
    "C14_displacement"
   ],
   "note": "Over any scalars satisfying ring laws (exact arithmetic), no position modifier."
  },
  {
   "property": "C15",
   "status": "partial",
   "theorems": [
    "C15_overlay_partial",
    "C15_integer_columns_refuted",
    "C15_no_duplicates_refuted",
    "C15_late_vacancies_refuted"
   ],
   "note": "Proved for all sequences of add_hopping calls whose accepted terms join each pair of orbitals at most once. The remaining clauses are false of the code: see the three refutations."
  },
  {
   "property": "C16",
   "status": "proved",
   "theorems": [
    "C16_extend",
    "C16_refused"
   ],
   "note": "All cells obtainable by editing, extending and merging, all dimensions >= 1; exact arithmetic for coordinates."
  },
  {
   "property": "C17",
   "status": "proved",
   "theorems": [
    "C17_same_as_supercell"
   ],
   "note": ""
  },
  {
   "property": "C18",
   "status": "partial",
   "theorems": [
    "C18_reshape_partial",
    "C18_reshape_refuted",
    "C18_long_cell_refuted",
    "C18_crystal_partial"
   ],
   "note": "Exact rationals for the coordinates. Proved: for integer matrices of non-zero determinant whose columns each contain a zero, with delta-shifts within two cells and tolerance below 1/|det|, the orbitals of the reshaped cell are exactly one representative of each translational class, at the same Cartesian position with the same energy and label, and every amplitude is that of the original crystal. The unrestricted statement is false of the code: for ((-3,3,3),(3,-3,3),(3,3,-3)) the search box misses 9 of 108 orbitals, and a diagonal cell of 201 cells loses one because of the delta shift (both proved as refutations). C18_crystal_partial: the reshaped cell is the same crystal over any real lattice."
  },
  {
   "property": "C19",
   "status": "partial",
   "theorems": [
    "C19_merge",
    "C19_refused",
    "C19_index_error_refuted",
    "C19_failed_merge_changes_input_refuted"
   ],
   "note": "Partial: the statement does not exclude containers with orbital numbers beyond their cells, for which it is false. For containers whose orbital numbers fit their own cells. Findings: a number beyond its cell is not reported but lands in the next block; a failing merge has already modified the first input cells."
  },
  {
   "property": "C20",
   "status": "proved",
   "theorems": [
    "C20_dense",
    "C20_refused",
    "C20_sample",
    "C20_sample_refused"
   ],
   "note": "Primitive cells: Hermitian and equal to the lattice sum, all k, both conventions. Samples: after any history of calls, dense and sparse agree, are Hermitian and equal energies plus hoppings with phases, times the scaling factor. Exact complex arithmetic (abstract star-ring; instance: pairs of reals). Finding: rows with float indices are refused by the dense version only."
  },
  {
   "property": "C21",
   "status": "proved",
   "theorems": [
    "C21_gauge",
    "C21_periodic",
    "C21_bands_periodic"
   ],
   "note": "All cells with fresh arrays, exact arithmetic."
  },
  {
   "property": "C22",
   "status": "proved",
   "theorems": [
    "C22_csr"
   ],
   "note": "All cells with fresh arrays (sync_array is called by the callers); scipy sparse sums are taken by their values."
  },
  {
   "property": "C23",
   "status": "proved",
   "theorems": [
    "C23_components",
    "C23_energies_positions",
    "C23_hoppings",
    "C23_reset",
    "C23_duplicates_refuted"
   ],
   "note": "For all samples made from reachable supercells and all histories of calls. Finding: init_hop never reports duplicate inter-hopping terms although documented."
  },
  {
   "property": "C24",
   "status": "partial",
   "theorems": [
    "C24_builders",
    "C24_cutoff_refuted"
   ],
   "note": "Partial: the statement does not exclude on-site energies below the cutoff, for which the matrices differ. All histories, cutoffs, both allocation schemes, with or without column sorting; argsort is any sorting permutation. The diagonal agrees when no nonzero on-site energy lies below the cutoff; finding: otherwise build_ham_dxy drops energies that build_ham_csr keeps."
  },
  {
   "property": "C25",
   "status": "partial",
   "theorems": [
    "C25_history",
    "C25_last_factor",
    "C25_default_bound_partial",
    "C25_default_bound_refuted",
    "C25_default_twice_refuted",
    "C25_forced_refuted"
   ],
   "note": "Proved: rescaling any number of times is invisible in set_ham and leaves the original divided by the last factor. The default factor bounds the spectrum only for non-negative on-site energies (proved, Gershgorin); refuted for negative ones. Findings: a second rescale_ham() undoes the first; forced initialisation after rescaling is inconsistent."
  },
  {
   "property": "C26",
   "status": "partial",
   "theorems": [
    "C26_phases",
    "C26_flux",
    "C26_gauge",
    "C26_calls",
    "C26_gauge2_no_flux",
    "C26_gauge2_refuted",
    "C26_periodic_refuted"
   ],
   "note": "Proved for all samples and fields: pure phases, Hermitian, identity at zero field, additive; for gauges 0 and 1 and samples without periodic boundaries the phase around every closed walk is field times enclosed area, and the two Hamiltonians are unitarily equivalent. Refuted for gauge 2: the code uses dx(xi+xj)-dy(yi+yj), so that no closed walk sees any flux. Refuted across periodic boundaries (gauges 0 and 1 differ there)."
  },
  {
   "property": "C27",
   "status": "proved",
   "theorems": [
    "C27_split_range",
    "C27_split_range_zero",
    "C27_split_list",
    "C27_split_list_bad",
    "C27_ranks",
    "C27_bounds",
    "C27_sums",
    "C27_bands",
    "C27_bands_failure",
    "C27_dos",
    "C27_states",
    "C27_states_failure",
    "C27_idle_process_refuted",
    "C27_idle_process"
   ],
   "note": "Proved for all sizes and process counts, including the bands, density of states and eigenstates of DiagSolver. Finding: dist_bound raises ValueError on a process without work (more processes than items)."
  },
  {
   "property": "C28",
   "status": "partial",
   "theorems": [
    "C28_constructor",
    "C28_regular",
    "C28_arbitrary",
    "C28_too_many_processes",
    "C28_single_process",
    "C28_regular_arbitrary",
    "C28_processes_refuted",
    "C28_area",
    "C28_tilted_refuted"
   ],
   "note": "Refuted as stated: the reduction sits inside the loop over q-points, so row i comes out multiplied by size^(number of later q-points); exact value proved for every number of processes, equal to the Lindhard function for one process or the last q-point. Also: the two-dimensional prefactor uses volume/|a2|, which is the area only if a2 is perpendicular to the layer."
  },
  {
   "property": "C29",
   "status": "partial",
   "theorems": [
    "C29_path",
    "C29_high_symmetric",
    "C29_zero_segment_refuted",
    "C29_path_refused",
    "C29_mesh",
    "C29_mesh_refused",
    "C29_distance"
   ],
   "note": "Partial: the statement does not exclude empty segments, for which a high-symmetric point is not on the path. Proved for all paths, interpolation counts and mesh sizes. With an empty segment the indices still are sums of counts but the high-symmetric point is not on the path (refuted, witness), so that passing every point needs positive counts."
  },
  {
   "property": "C30",
   "status": "partial",
   "theorems": [
    "C30_inverse",
    "C30_singular",
    "C30_rows_refuted",
    "C30_reciprocal",
    "C30_area_volume",
    "C30_reset_lattice",
    "C30_reset_refused"
   ],
   "note": "Partial: the statement does not exclude coordinates given as lists, for which frac2cart raises TypeError. Over the reals with exact 3x3 solves. Finding: frac2cart raises TypeError for coordinates that are not numpy arrays (np.ndarray(list)), unlike cart2frac."
  },
  {
   "property": "C31",
   "status": "partial",
   "theorems": [
    "C31_vectors",
    "C31_admissible",
    "C31_flat"
   ],
   "note": "Partial: lengths and angles are those of the vectors before components below 1e-15 are set to zero. Exact vectors have the requested lengths and angles, the returned ones differ by components below 1e-15 set to zero; success is characterised by the solid-angle inequalities."
  },
  {
   "property": "C32",
   "status": "partial",
   "theorems": [
    "C32_rotation",
    "C32_isometry",
    "C32_compose",
    "C32_integer_refuted",
    "C32_refused",
    "C32_spiral",
    "C32_spiral_refused"
   ],
   "note": "Partial: the statement does not exclude integer arrays, for which it is false. For float input. Finding: integer coordinate arrays are truncated and the rotation is not an isometry."
  },
  {
   "property": "C33",
   "status": "proved",
   "theorems": [
    "C33_tensor",
    "C33_complex",
    "C33_illegal",
    "C33_short",
    "C33_rotation",
    "C33_axis"
   ],
   "note": "All 81 label pairs, all directions and parameters, over the reals. Complex parameters: the same formula with the conjugate parameters for pairs taken in reversed order. Vectors not longer than 1e-15 and other labels are rejected. The tensor formula is rotation invariant and reduces to V_llm along z."
  },
  {
   "property": "C34",
   "status": "partial",
   "theorems": [
    "C34_hermitian",
    "C34_complex",
    "C34_complex_refuted"
   ],
   "note": "Partial: the statement does not exclude complex parameters, for which it is false between p orbitals. Proved for real parameters (all labels, legal or not, and all vectors), and for complex parameters between different l and different d orbitals. Refuted for complex parameters between two p orbitals."
  },
  {
   "property": "C35",
   "status": "partial",
   "theorems": [
    "C35_spec",
    "C35_table2",
    "C35_table",
    "C35_illegal",
    "C35_hermitian",
    "C35_time_reversal",
    "C35_spectrum",
    "C35_trace",
    "C35_shells"
   ],
   "note": "Partial: SOCTable agrees with the other two within 2e-16, not exactly. All labels and spins. SOC and SOCTable2 agree exactly (over the reals); SOCTable agrees with them within 2e-16 per component, the rounding of its printed literals. Equal to the tensor form of L.S, Hermitian, time-reversal symmetric, (L.S)^2 = l(l+1)/4 - L.S/2 with zero trace."
  },
  {
   "property": "C36",
   "status": "proved",
   "theorems": [
    "C36_mesh",
    "C36_lookup",
    "C36_wrap_grid",
    "C36_wrap_grid_unique",
    "C36_wrap_frac",
    "C36_wrap_frac_unique"
   ],
   "note": "For all mesh sizes and all integer q."
  },
  {
   "property": "C37",
   "status": "proved",
   "theorems": [
    "C37_hermitian",
    "C37_gradient"
   ],
   "note": "Derivative in the sense of the standard library (derivable_pt_lim) of both parts of every matrix element."
  },
  {
   "property": "C38",
   "status": "proved",
   "theorems": [
    "C38_kernels",
    "C38_sample_product"
   ],
   "note": "All four kernels for every well-formed set of arrays; the arrays a sample builds are well formed and the product is the one with the matrix of build_ham_csr when no non-zero on-site energy is below the cutoff (C24_cutoff_refuted shows that condition is needed). Sums are exact; the MKL branch is not modelled."
  },
  {
   "property": "C39",
   "status": "proved",
   "theorems": [
    "C39_timestep",
    "C39_fermi",
    "C39_adjoint",
    "C39_eigenvector",
    "C39_short_refuted"
   ],
   "note": "Any matrix, vector and series of at least three terms. C39_short_refuted: shorter series are read out of bounds. The Bessel values themselves are an input."
  },
  {
   "property": "C40",
   "status": "proved",
   "theorems": [
    "C40_dos",
    "C40_ldos",
    "C40_ac_cond",
    "C40_dyn_pol",
    "C40_quasi_eigenstates",
    "C40_process_count",
    "C40_seed_zero",
    "C40_norm_check_refuted",
    "C40_no_steps_refuted"
   ],
   "note": "Random states, Bessel values and the norm comparison are parameters. Refuted: the norm is checked once and not after every wfn_check_steps steps; zero steps are an index error. With seed 0 all samples coincide. DC conductivity correlations (tbpm_dccond) are not modelled."
  },
  {
   "property": "C41",
   "status": "proved",
   "theorems": [
    "C41_tridiagonal",
    "C41_unique",
    "C41_depth",
    "C41_green",
    "C41_exact",
    "C41_ldos_positive",
    "C41_ldos_site",
    "C41_ldos_seed",
    "C41_processes",
    "C41_average_refuted"
   ],
   "note": "Haydock_coef on a Hermitian matrix and a unit vector returns the (unique) tridiagonalisation, or stops with a division by zero exactly when an earlier b vanishes; more levels than orbitals always divide by zero. green_function is the resolvent of the tridiagonal matrix, exact when the last b is 0. The local DOS is positive for any sites, samples and vectors; for one site independent of phases, seed and number of samples. Refuted: with several sites the result is not the average of the local DOS of the samples (the coefficients are averaged)."
  },
  {
   "property": "C42",
   "status": "partial",
   "theorems": [
    "C42_snapshots",
    "C42_order_refuted",
    "C42_repeated_refuted",
    "C42_empty_refuted"
   ],
   "note": "Partial: the statement does not exclude an empty list, which is an index error. Refuted: rows do not follow the order and multiplicity of the list of the caller; an empty list is an index error."
  },
  {
   "property": "C43",
   "status": "partial",
   "theorems": [
    "C43_dos",
    "C43_peak",
    "C43_windows",
    "C43_zero_refuted",
    "C43_window_shape"
   ],
   "note": "Partial: the statement does not exclude correlation functions for which nothing is left to normalise. numpy.fft.ifft is modelled by its defining sum. C43_peak: the DOS of a single level on the energy grid is largest at its energy. A correlation function that is zero at time zero may leave nothing to normalise (division by zero, NaN in numpy)."
  },
  {
   "property": "C44",
   "status": "partial",
   "theorems": [
    "C44_parity",
    "C44_on_reference_refuted",
    "C44_values",
    "C44_tracked",
    "C44_nothing_lost",
    "C44_refuted"
   ],
   "note": "Parity of crossings proved for bands that avoid the reference (refuted when a phase lies on it). Phases that move by less than the threshold while all others stay further away are tracked and none is lost; refuted in general: a phase can be taken twice and another lost."
  },
  {
   "property": "C45",
   "status": "partial",
   "theorems": [
    "C45_expectation",
    "C45_layouts",
    "C45_bound",
    "C45_eval",
    "C45_history",
    "C45_stale",
    "C45_failure",
    "C45_stale_refuted"
   ],
   "note": "Real, bounded, layout-independent and process-independent proved. Up to date only if the model is not edited after the first evaluation; refuted in general: the cache is keyed on the k-grid only, and it is marked valid before the states are calculated, so a failed call is followed by stale results."
  },
  {
   "property": "C46",
   "status": "proved",
   "theorems": [
    "C46_toc",
    "C46_report_total",
    "C46_report",
    "C46_tic_twice",
    "C46_bar",
    "C46_bar_few",
    "C46_bar_scales_refuted"
   ],
   "note": "For all histories of tic/toc/reset calls. A second tic discards the time since the first. Finding: the number of progress reports is not num_scales in general (19 tasks, 10 scales: 19 reports)."
  },
  {
   "property": "C47",
   "status": "partial",
   "theorems": [
    "C47_plain",
    "C47_corrected_partial",
    "C47_missing",
    "C47_unlisted",
    "C47_overwrite_refuted",
    "C47_degeneracy_ignored",
    "C47_degeneracy_refuted"
   ],
   "note": "Without correction the cell has exactly the amplitudes and energies of the file that pass the cutoff. With correction it has the summed shares when contributions do not meet (hypothesis apart); the full statement is false: meeting contributions are overwritten instead of added, and the degeneracies of the file are skipped."
  },
  {
   "property": "C48",
   "status": "proved",
   "theorems": [
    "C48_complete",
    "C48_default",
    "C48_mutual",
    "C48_errors"
   ],
   "note": "For any total order of distances and any KDTree keeping its promise (kd_tree, met by comparing all pairs): exactly the pairs within the cutoff and range, each once, sorted by distance and at equal distance in search order; opposite pairs when both cells are the same; errors for empty cells and cells of different kinds."
  },
  {
   "property": "C49",
   "status": "partial",
   "theorems": [
    "C49_trim",
    "C49_supercell_trim"
   ],
   "note": "Partial: for supercells the statement does not exclude vacancies added after hoppings were edited, for which it is false. Supercell part: vacancies are edited before hoppings (cf. C15_late_vacancies_refuted), and index columns are integers (cf. C15_integer_columns_refuted)."
  },
  {
   "property": "C50",
   "status": "proved",
   "theorems": [
    "C50_apply_pbc"
   ],
   "note": ""
  },
  {
   "property": "C51",
   "status": "proved",
   "theorems": [
    "C51_fermi",
    "C51_decreasing",
    "C51_symmetric"
   ],
   "note": "Over the reals; rounding is not modelled."
  },
  {
   "property": "C52",
   "status": "partial",
   "theorems": [
    "C52_checked",
    "C52_file_accepted",
    "C52_unchecked_refuted",
    "C52_file_refuted"
   ],
   "note": "Proved for the four checked groups of a Config edited in any way. Refuted as stated: DC_conductivity and quasi_eigenstates are never checked, and read_config makes every loaded name legal."
  },
  {
   "property": "C53",
   "status": "partial",
   "theorems": [
    "C53_inter_hoppings",
    "C53_bounds_refuted"
   ],
   "note": "Partial: the statement does not exclude indices beyond the supercells, which the code does not check. For terms whose indices are within the two supercells; the code does not check that (C53_bounds_refuted)."
  },
  {
   "property": "C54",
   "status": "proved",
   "theorems": [
    "C54_fft",
    "C54_inverse",
    "C54_algebra",
    "C54_length_refuted"
   ],
   "note": "The built-in transform of fft.F90; builds that call FFTW or MKL are not modelled. Refuted for other lengths: the permutation loop does not end (length 3)."
  },
  {
   "property": "C55",
   "status": "proved",
   "theorems": [
    "C55_moments",
    "C55_current_hermitian",
    "C55_weights_hermitian",
    "C55_trace_real"
   ],
   "note": "Reality is that of the full trace; averages over finitely many random states need not be real and the program takes the real part."
  },
  {
   "property": "C56",
   "status": "partial",
   "theorems": [
    "C56_roundtrip",
    "C56_roundtrip_fresh",
    "C56_idempotent",
    "C56_stale_refuted",
    "C56_mixed_refuted"
   ],
   "note": "Partial: the statement does not exclude samples with missing arrays or directories with files of an earlier save, for which it is false. For samples with all arrays present, or from an empty directory into a fresh sample. Findings: stale files of an earlier save are loaded back; the scaling factor is saved with the hoppings only, so that separately saved energies can be mixed with another factor."
  },
  {
   "property": "C57",
   "status": "proved",
   "theorems": [
    "C57_folding",
    "C57_kpoint"
   ],
   "note": "Any reachable cell, supercell without vacancies and modifiers, any k; hoppings do not leave the supercell along open directions. C57_kpoint discharges the wave-vector hypotheses for the reciprocal vectors of the supercell (real numbers)."
  },
  {
   "property": "C58",
   "status": "partial",
   "theorems": [
    "C58_first_call",
    "C58_calls_add",
    "C58_second_call_refuted"
   ],
   "note": "Proved for the first call; calls add up, hence a second call is relative to the first and the property is false as documented."
  },
  {
   "property": "C59",
   "status": "proved",
   "theorems": [
    "C59_kubo",
    "C59_illegal"
   ],
   "note": "Velocities are characterised as derivatives of the convention-1 Hamiltonian; the eigensolver is a parameter."
  },
  {
   "property": "C60",
   "status": "partial",
   "theorems": [
    "C60_epsilon",
    "C60_list_refuted",
    "C60_epsilon_q0",
    "C60_q0_layer"
   ],
   "note": "Partial: the statement does not exclude q-points given as lists, which raise TypeError. For arrays of q-points. Finding: lists of q-points raise TypeError (np.ndarray(q_points))."
  },
  {
   "property": "C61",
   "status": "proved",
   "theorems": [
    "C61_seeds",
    "C61_range",
    "C61_number_refuted"
   ],
   "note": "The random numbers are inputs of the model. The list can be shorter than n (refuted witness)."
  },
  {
   "property": "C62",
   "status": "proved",
   "theorems": [
    "C62_phases",
    "C62_gauge"
   ],
   "note": "The eigenvalue routine is a parameter that returns the same multiset for unitarily similar matrices."
  },
  {
   "property": "C63",
   "status": "proved",
   "theorems": [
    "C63_bessel",
    "C63_short_refuted"
   ],
   "note": "Refuted: series of fewer than three terms are accepted and then read out of bounds."
  },
  {
   "property": "C64",
   "status": "proved",
   "theorems": [
    "C64_coefficients",
    "C64_unset_memory",
    "C64_occupation",
    "C64_operator",
    "C64_short_refuted"
   ],
   "note": "Over the reals, transform lengths 2^p. Refuted: at infinite temperature the series has two terms, fewer than the kernel reads."
  },
  {
   "property": "C65",
   "status": "partial",
   "theorems": [
    "C65_dc_intensive",
    "C65_ac_refuted",
    "C65_ac_inputs",
    "C65_extended",
    "C65_merge_refuted",
    "C65_merged"
   ],
   "note": "Partial: the statement is false for optical conductivity and dynamic polarization. C65_extended: the same for every obtainable cell extended by extend_prim_cell. C65_merge_refuted: the extension factor of a merged cell depends on the order of the cells, since merge_prim_cell compares a difference without its absolute value. Holds for DC and Hall conductivity; refuted for optical conductivity and dynamic polarization, which come out smaller by the factor k (prefactors divide by the extension factor while nr_orbitals and the cell size already refer to the enlarged cell)."
  },
  {
   "property": "C66",
   "status": "proved",
   "theorems": [
    "C66_legal",
    "C66_plus",
    "C66_minus",
    "C66_z",
    "C66_commutators",
    "C66_casimir",
    "C66_product",
    "C66_adjoint"
   ],
   "note": "Over the reals, for arbitrary l."
  },
  {
   "property": "C67",
   "status": "partial",
   "theorems": [
    "C67_fill",
    "C67_apply",
    "C67_locked",
    "C67_refused_stored_refuted",
    "C67_reuse_refuted",
    "C67_small_diagonal_refuted",
    "C67_inconsistent_refuted"
   ],
   "note": "Partial: the statement is false for refused matrices, which are stored, and for contradicting orientations. All histories of assignments (C67_fill) and all reachable cells (C67_apply) for dictionaries with zero diagonal whose two orientations of a bond do not contradict each other. Refuted beyond: a matrix refused for its diagonal is stored all the same; add_hopping_dict makes its argument unusable; tiny diagonal elements stop the application half-way; contradicting orientations are resolved silently."
  },
  {
   "property": "C68",
   "status": "partial",
   "theorems": [
    "C68_diamond",
    "C68_rect",
    "C68_reshaped",
    "C68_rect_real",
    "C68_complex_refuted",
    "C68_thickness_refuted"
   ],
   "note": "Partial: the statement does not exclude complex hoppings, for which the two rectangular cells differ. Real hopping for the cell built from scratch; all complex hoppings for the reshaped one. Refuted beyond: with a complex hopping the two rectangular cells differ (one bond is written the other way round), and from_scratch=False ignores the thickness argument."
  },
  {
   "property": "C69",
   "status": "proved",
   "theorems": [
    "C69_symmetries",
    "C69_hamiltonian"
   ],
   "note": "Both values of is_qsh, all pairs of orbitals of the infinite crystal, all cell indices. The amplitudes are compared with the Kane-Mele formula written from the positions of the atoms."
  },
  {
   "property": "C70",
   "status": "proved",
   "theorems": [
    "C70_symmetries",
    "C70_bonds"
   ],
   "note": "Every c <> 0. Decimal literals are exact, sin and cos are the real functions; symmetries permute the orbitals and move space by the stated isometries."
  },
  {
   "property": "C71",
   "status": "proved",
   "theorems": [
    "C71_symmetries",
    "C71_rotation",
    "C71_rotation_soc_refuted"
   ],
   "note": "Every soc_lambda and every c <> 0. With spin-orbit coupling the threefold rotation is refuted: the literals 0.7020 - 0.4053j and 0.8107j differ in size; the statement claims it only without coupling."
  },
  {
   "property": "C72",
   "status": "proved",
   "theorems": [
    "C72_symmetries",
    "C72_refused"
   ],
   "note": "The four materials of the tables; exact values of the decimal literals and square roots."
  },
  {
   "property": "C73",
   "status": "proved",
   "theorems": [
    "C73_bands",
    "C73_kramers",
    "C73_antimonene",
    "C73_kane_mele",
    "C73_tmdc",
    "C73_compose"
   ],
   "note": "For set_ham_dense in convention 1 (C21 relates the conventions)."
  },
  {
   "property": "C74",
   "status": "partial",
   "theorems": [
    "C74_symmetric",
    "C74_graphene"
   ],
   "note": "Partial: bonds shorter than 1e-15 nm are excluded by the theorems and not by the statement. Arithmetic is real; the neighbour search is any function with the contract kd_tree of C48. Bonds shorter than 1e-15 nm are excluded (SK.eval treats them as on-site)."
  },
  {
   "property": "C75",
   "status": "partial",
   "theorems": [
    "C75_built",
    "C75_symmetric",
    "C75_kramers",
    "C75_mos2"
   ],
   "note": "Partial: the theorems assume that the cell has no hopping between different orbitals of one atom, which the statement does not say. Decimal literals are exact reals. The neighbour search, the inverse of the lattice and the comparison of lattices are functions with the contracts of C48 and C18. The line energy += soc_intensity of make_mos2_soc updates an unused variable; it is modelled as it is, and C75_built assumes that the cell has no hopping between different orbitals of one atom."
  },
  {
   "property": "C76",
   "status": "partial",
   "theorems": [
    "C76_container",
    "C76_matrix",
    "C76_onsite_only",
    "C76_energies",
    "C76_conventions",
    "C76_periodic",
    "C76_solver",
    "C76_stale_refuted",
    "C76_projection_refuted"
   ],
   "note": "Partial: the statement does not exclude models changed after the overlap was made, for which the conventions differ. lapack.zhegv is a function with the contract zhegv_ok. The conventions agree if the orbitals of the overlap are where those of the model are, as after Overlap(model); C76_stale_refuted shows that moving an orbital of the model afterwards makes the energies depend on the convention, and C76_projection_refuted that projections on all orbitals do not add up to 1 with an overlap."
  },
  {
   "property": "C77",
   "status": "partial",
   "theorems": [
    "C77_reuse_partial",
    "C77_resized",
    "C77_resized_refuted"
   ],
   "note": "True as long as the number of orbitals stays the same. The full statement is false: the matrices keep the size of the first call, so that after adding or removing an orbital the solver does not return bands again (C77_resized, C77_resized_refuted)."
  },
  {
   "property": "C78",
   "status": "proved",
   "theorems": [
    "C78_schroedinger",
    "C78_orthonormal",
    "C78_cube",
    "C78_nucleus",
    "C78_nucleus_refuted",
    "C78_unsupported"
   ],
   "note": "Over the reals. Derivatives are those of the standard library, integrals are given by antiderivatives (S_atom). C78_nucleus_refuted: at the nucleus zero is written for s states although the wave function is positive there."
  },
  {
   "property": "C79",
   "status": "partial",
   "theorems": [
    "C79_corr",
    "C79_corr_energies",
    "C79_normalisation",
    "C79_filter",
    "C79_defined"
   ],
   "note": "Partial: the response of quasi-eigenstates is proved for propagator series that give the phase of every level exactly, which truncated series do approximately. Exact arithmetic; the random states, Bessel coefficients and modulus are parameters. C79_filter assumes that the series of the propagator gives the phase of the level; truncation of the Bessel series is the subject of C38/C39."
  },
  {
   "property": "C80",
   "status": "proved",
   "theorems": [
    "C80_dc_cond",
    "C80_diff_coeff",
    "C80_einstein",
    "C80_spin_quadruple",
    "C80_spin_refuted"
   ],
   "note": "Over the reals, on the master process. The claim about correct_spin is refuted: calc_dos has already doubled the density of states, then the conductivity is doubled again (C80_spin_quadruple for all inputs, C80_spin_refuted with a non-zero value)."
  },
  {
   "property": "C81",
   "status": "proved",
   "theorems": [
    "C81_derivative",
    "C81_hall",
    "C81_unit",
    "C81_bastin"
   ],
   "note": "Over the reals. The derivative is that of the standard library (derivable_pt_lim), for every function that is one; C81_derivative gives one. C81_bastin assumes a complete orthonormal set of eigenvectors."
  },
  {
   "property": "C82",
   "status": "proved",
   "theorems": [
    "C82_ac",
    "C82_static",
    "C82_dimension"
   ],
   "note": "Over the reals, on the master process. scipy.signal.hilbert is modelled by its definition with FFT and inverse FFT."
  },
  {
   "property": "C83",
   "status": "proved",
   "theorems": [
    "C83_dyn_pol",
    "C83_static",
    "C83_epsilon",
    "C83_q_zero",
    "C83_epsilon_q0",
    "C83_errors"
   ],
   "note": "Over the reals, on the master process. None stands for inf or nan."
  },
  {
   "property": "C84",
   "status": "partial",
   "theorems": [
    "C84_balance",
    "C84_ac_pairs",
    "C84_dyn_pol_pairs",
    "C84_optical"
   ],
   "note": "Partial: proved for truncated series that give phases and occupations of every level exactly, which they do approximately. The values of single samples are those of C40. Assumes a complete orthonormal set of eigenvectors, and that the truncated series give phase and occupations of every level."
  },
  {
   "property": "C85",
   "status": "proved",
   "theorems": [
    "C85_deterministic",
    "C85_print_hk",
    "C85_exact",
    "C85_exact_2",
    "C85_refused",
    "C85_once",
    "C85_rounding_refuted"
   ],
   "note": "The text is modelled by its tokens and read by an evaluator of Python's arithmetic grammar in the specification; numerals are assumed to be read back unchanged. C85_rounding_refuted: displacements below 1e-5 are dropped, so equality fails in general."
  },
  {
   "property": "C86",
   "status": "proved",
   "theorems": [
    "C86_cell",
    "C86_illegal",
    "C86_mirror",
    "C86_super",
    "C86_half_refuted",
    "C86_replaced_refuted",
    "C86_inter"
   ],
   "note": "A picture is the list of calls on the matplotlib axes without colours and styles. C86_half_refuted: without conjugates an arrow may start where no orbital is drawn, since cell 0 need not be in the range. C86_replaced_refuted: supercells in which add_hopping only replaced terms cannot be drawn (IndexError), see C15."
  },
  {
   "property": "C87",
   "status": "partial",
   "theorems": [
    "C87_errors",
    "C87_zero",
    "C87_relative",
    "C87_rejects",
    "C87_fit",
    "C87_integers_refuted",
    "C87_zeros_refuted"
   ],
   "note": "Partial: the statement does not exclude integer weights and weights that are all zero, for which it is false. scipy.optimize.leastsq enters as a function with a stated contract (a success status means a local minimum of the sum of squares). Numpy broadcasting of dimensions of size one is left out. C87_integers_refuted: weights given as an integer array are refused with TypeError, because the normalisation divides in place. C87_zeros_refuted: weights that are all zero are accepted and make every error NaN."
  },
  {
   "property": "C88",
   "status": "partial",
   "theorems": [
    "C88_commensurate",
    "C88_series",
    "C88_layers",
    "C88_graphene",
    "C88_spiral",
    "C88_aligned",
    "C88_large_refuted",
    "C88_clockwise_refuted"
   ],
   "note": "Partial: that both layers are the crystals they were made of is false for large indices, and not decided for 55 to 66. Reals are exact; entries of the matrix handed to reshape_prim_cell are read back as rational numbers by a function given as an argument (C88_reading: it exists). C88_large_refuted: from index 67 on (angle below about 0.86 degrees) both layers of graphene silently lack an orbital, since the shift delta = 0.01 moves sites out of the search box. Indices 55 to 66 are not decided. C88_clockwise_refuted: the angle has no sign, so with n > m the layer is turned the wrong way and the coordinates are not whole."
  },
  {
   "property": "C89",
   "status": "proved",
   "theorems": [
    "C89_grid",
    "C89_default_range",
    "C89_reversed",
    "C89_states",
    "C89_shape",
    "C89_illegal"
   ],
   "note": "Exact reals; the eigensolver enters through the contract of C27. A width of zero divides by zero and is excluded. The Gaussian integral is proved from the standard library's Riemann integral. The spacing of the grid equals e_step only if e_step divides the range; with fewer than two steps it is almost doubled. C89_reversed: a range that runs backwards by one to two steps gives an empty grid without an error, a larger one ValueError. The docstring calls sigma the half-width of the Gaussian; it is its standard deviation, the half-width at half maximum being 18 percent larger."
  },
  {
   "property": "C90",
   "status": "proved",
   "theorems": [
    "C90_unique",
    "C90_file",
    "C90_convention",
    "C90_periodic",
    "C90_phase",
    "C90_bloch",
    "C90_atoms",
    "C90_rnmax_refuted",
    "C90_edge_refuted"
   ],
   "note": "Exact reals; a number is one token of the text, so the rounding of 13.5e and the missing blank between a field and a following negative number with a three-digit exponent are left out. Points closer than 1e-7 bohr to a nucleus hold zero (C78_nucleus_refuted) and are excluded. C90_rnmax_refuted: the documented default rn_max=None always raises TypeError, because numpy.zeros(3) holds floats. C90_edge_refuted: with the default range, the farthest orbital of a model of 1 nm or more lies beyond the last plane of the grid. Kinds other than real and imag mean abs2 without a message. Only the process that writes is modelled. The atomic number of a place shared by several orbitals is that of the last orbital."
  },
  {
   "property": "C91",
   "status": "partial",
   "theorems": [
    "C91_image",
    "C91_image_refuted",
    "C91_wfc",
    "C91_vector",
    "C91_bands",
    "C91_phases",
    "C91_cell",
    "C91_no_hopping_refuted",
    "C91_sample",
    "C91_sample_plot",
    "C91_shapes_refused"
   ],
   "note": "Partial: plot_wfc fails for models without hopping terms, which the statement does not exclude. A picture is the list of calls to the axes; colours, widths and labels of axes are left out, and scipy's griddata is an arbitrary function of the data that is evaluated point by point. C91_image_refuted: for num_grid = (nx, ny) with nx <> ny (both at least 2) the image is wrong, since the values on a mesh of ny rows and nx columns are reshaped to nx rows and ny columns; for the field f(x, y) = x no such image is right, whatever the data. C91_no_hopping_refuted: plot_wfc of a PrimitiveCell without hopping terms raises IndexError unless with_model=False. Samples whose hopping indices are floats (C15_integer_columns_refuted) raise IndexError."
  },
  {
   "property": "C92",
   "status": "proved",
   "theorems": [
    "C92_words",
    "C92_int",
    "C92_float",
    "C92_lattice",
    "C92_centres",
    "C92_hop",
    "C92_wsvec",
    "C92_files",
    "C92_missing",
    "C92_unit",
    "C92_empty_line",
    "C92_truncated_refuted",
    "C92_no_block",
    "C92_capitals_refuted",
    "C92_per_line_refuted"
   ],
   "note": "Findings: a hopping file that was cut off is read without an error, since the header is not compared with the body (C92_truncated_refuted); keywords in capital letters, which Wannier90 accepts, are not found, and the lattice vectors are then an empty array without an error at that place (C92_no_block, C92_capitals_refuted); an empty last line of the centres or of the hopping file raises IndexError (C92_empty_line); degeneracies with other than 15 in a line are read as matrix elements (C92_per_line_refuted). Text is ASCII; inf, nan and underscores in numbers are not modelled; numbers are exact, not rounded to doubles."
  },
  {
   "property": "C93",
   "status": "proved",
   "theorems": [
    "C93_state",
    "C93_nan",
    "C93_reproducible",
    "C93_default",
    "C93_period_refuted",
    "C93_odd_refuted",
    "C93_chance_refuted"
   ],
   "note": "Findings: that samples differ is not true of every seed. If 2^32 divides seed*(j-k) the samples j and k are the same state (C93_period_refuted; seed 0 is C40_seed_zero); the odd seed 1441268729 gives the samples 1 to 500 the same array of zeros (C93_odd_refuted); seed 12345 repeats sample 41 at 8163 with arrays of length 4 (C93_chance_refuted), since only 104717 values are possible. If all weights drawn are 0 the state is NaN (C93_nan). Integer overflow is taken to wrap around modulo 2^32; numbers are real."
  },
  {
   "property": "C94",
   "status": "partial",
   "theorems": [
    "C94_names",
    "C94_place",
    "C94_saved",
    "C94_untouched",
    "C94_failed",
    "C94_worker",
    "C94_last",
    "C94_value",
    "C94_single",
    "C94_illegal",
    "C94_config",
    "C94_nested",
    "C94_stale_refuted",
    "C94_dc_refuted",
    "C94_text_refuted",
    "C94_same_second_refuted"
   ],
   "note": "Partial: the saved configuration is out of date after a calculation raised the number of samples. Findings: calc_corr_dc_cond saves its own, differently long, DOS correlation under the name of calc_corr_dos and replaces that file (C94_dc_refuted); the saved configuration keeps the old number of samples when a calculation raises it (C94_stale_refuted); without a prefix two solvers made within the same second and directory share all files (C94_same_second_refuted); every process opens the same text file (C94_text_refuted); a directory whose parent is missing raises FileNotFoundError (C94_nested). Paths are resolved by text, without symbolic links; all errors of the file system are one; the numerical work is a parameter (see C40-C42, C55, C61, C63)."
  },
  {
   "property": "C95",
   "status": "proved",
   "theorems": [
    "C95_all_reduce",
    "C95_reduce",
    "C95_all_average",
    "C95_average",
    "C95_integers",
    "C95_bcast",
    "C95_surroundings",
    "C95_gaps",
    "C95_serial",
    "C95_one_dimension",
    "C95_mixed_refuted"
   ],
   "note": "Finding: if one process holds a row-major and another a column-major array, all_reduce and bcast mix up the items without an error (C95_mixed_refuted); the order is not compared between processes. This is the layer below M_par, whose arrays are functions of the index. Sums are exact."
  },
  {
   "property": "C96",
   "status": "proved",
   "theorems": [
    "C96_add",
    "C96_units",
    "C96_set",
    "C96_set_keeps",
    "C96_write_back",
    "C96_refused",
    "C96_distances",
    "C96_distances_origin"
   ],
   "note": "Over the real numbers; distances for cells whose hopping terms name existing orbitals, which every sequence of calls guarantees (C02)."
  },
  {
   "property": "C97",
   "status": "proved",
   "theorems": [
    "C97_vector_operation",
    "C97_vector_scale",
    "C97_vector_copy",
    "C97_vector_combine",
    "C97_csr",
    "C97_current",
    "C97_fermi",
    "C97_cheb",
    "C97_jackson",
    "C97_normalise",
    "C97_phase",
    "C97_density",
    "C97_haydock",
    "C97_gamma",
    "C97_quasi_eigenstates",
    "C97_kbdc",
    "C97_fft",
    "C97_response",
    "C97_pairs",
    "C97_ac_pairs",
    "C97_trace",
    "C97_dc_cond",
    "C97_finishes",
    "C97_shared_k_refuted",
    "C97_shared_sum_refuted"
   ],
   "note": "Over any commutative ring with the elementary functions as parameters: exact numbers, so the order of additions in reductions does not matter (with floating-point numbers it changes the last digits). Accesses are atomic and sequentially consistent, which is no restriction for loops without data races. Branches with BLAS, MKL and FFTW are not modelled. C97_shared_k_refuted and C97_shared_sum_refuted show that the model sees races: without PRIVATE(k) or REDUCTION the result is wrong on some schedule. C97_fft for stages whose length divides the number of points, as powers of two do."
  },
  {
   "property": "C98",
   "status": "proved",
   "theorems": [
    "C98_cell",
    "C98_int",
    "C98_banner",
    "C98_columns_refuted"
   ],
   "note": "C98_cell assumes that Python rounds floats to five decimals correctly (hypothesis `rounds`, shown satisfiable in C98_rounds). The text of a complex energy is a parameter. C98_columns_refuted: the columns have no separator, so with -100 in a line the numbers cannot be told apart by blanks; hence the range in the statement. Banners with marks of one character."
  }
 ]
}
