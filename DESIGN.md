# Formal model of tbplas: design

## Method

* The model is a shallow embedding in Gallina, one definition per function of
  `/repo/tbplas`, mirroring its branches and its order of effects.  Every
  definition cites file and lines; simplifications are named in that comment.
* Exceptions are values (`Err`).  Mutators return the new state together with
  the result, also when they raise, so that half-finished updates are visible.
* Python `int`, numpy `int32/int64` and C `int/long` are `Z` (unbounded), except
  in the theorems about overflow (C07).  Python dicts are association lists in
  insertion order; index errors and negative indices follow Python or C
  according to the language of the function.
* Loops are folds or structural recursions.  `while` loops carry fuel, and a
  theorem excludes running out of it (or, for C54, exhibits a length at which no
  fuel suffices).
* Floating point numbers are exact: `Z`, `Qc`, `R`, or any commutative ring
  satisfying the laws named in the theorem.  Complex numbers are pairs of reals
  (`Cx.v`), or an abstract star-ring.  Rounding is not modelled.
* External calls (numpy linear algebra, LAPACK, MPI transport, wall clock,
  random numbers, KDTree, argsort, Bessel functions) are function parameters
  whose contract is a hypothesis of the theorem, never an axiom.

Layout of `rocq/theories`: `M_*.v` model, `S_*.v` independent specification (no
model helpers), `L_*.v` lemmas, `P_*.v` property theorems with their examples
and `Print Assumptions`.  Theorem names start with the id of the property.
`_refuted` marks a machine-checked counterexample, `_partial` a theorem that
covers part of the property.

## Plan per property

For each property the code that is modelled, the method of proof and the file
of the theorems.  Every property is expressible in the model; the parts that are
not are named in "What is not modelled" and in the notes of `MANIFEST.json`.

| id | modelled | how proved | file | status |
|----|----------|------------|------|--------|
| C01 | IntraHopping and the hopping API of PrimitiveCell | refinement to a Hermitian function, induction over the operations | `P_pc` | proved |
| C02 | the same with to_array, sync_hop | invariant over all histories | `P_pc` | proved |
| C03 | remove_orbitals in both layers | list reasoning; refuted for negative indices | `P_pc` | proved |
| C04 | all mutators with error results | case analysis of every mutator; refuted for remove_orbitals | `P_pc` | partial |
| C05 | Observable, lock checks, constructors | invariant over all histories; witnesses for the refutations | `P_pc`, `P_super` | partial |
| C06 | sync_orb, sync_hop with the hashes of CPython | invariant over all histories under a condition on hashes; witnesses | `P_sync` | partial |
| C07 | id conversions of super.pyx | arithmetic; wrap at 2^31 written into the model | `P_index` | partial |
| C08 | OrbitalSet, vacancies, id tables | list induction | `P_index` | proved |
| C09 | array conversions and bisection | loop invariant | `P_index` | proved |
| C10 | _wrap_pbc, _fast_div with fuel | arithmetic and a bound on the number of steps | `P_index` | proved |
| C11 | build_hop_* buffers | counting over nested loops | `P_super` | proved |
| C12 | split_pc_hop, build_hop_pbc | equality of the two loops as multisets | `P_super` | proved |
| C13 | find_equiv_hopping | search invariant | `P_super` | proved |
| C14 | displacements of build_hop | arithmetic of cells | `P_super` | proved |
| C15 | SuperCell.get_hop with modifiers | overlay specification; witnesses | `P_super` | partial |
| C16 | extend_prim_cell | refinement to the infinite crystal | `P_build` | proved |
| C17 | extend_prim_cell and SuperCell | equality of amplitudes through the crystal | `P_build` | proved |
| C18 | reshape_prim_cell | box arguments over rationals, determinant bound; witnesses | `P_reshape`, `P_reshape2` | partial |
| C19 | merge_prim_cell | refinement to the disjoint union | `P_build` | partial |
| C20 | set_ham_dense, Hermitian parts | complex algebra over nested loops | `P_bloch`, `P_sample` | proved |
| C21 | both phase conventions | unitary gauge; periodicity of phases | `P_bloch` | proved |
| C22 | set_ham_csr | equality with the dense matrix | `P_bloch` | proved |
| C23 | Sample assembly from components | list reasoning by offsets | `P_sample` | proved |
| C24 | build_ham_csr, sorting | permutation argument with the contract of argsort | `P_sample` | partial |
| C25 | rescale_ham, set_ham | invariant over call sequences; Gershgorin bound | `P_sample` | partial |
| C26 | set_magnetic_field | sums over closed walks; witnesses | `P_mag` | partial |
| C27 | split_range, split_list, reductions, DiagSolver | induction over ranks | `P_par` | proved |
| C28 | dynamic polarization of lindhard.py | nested reductions over processes; witnesses | `P_lind` | partial |
| C29 | gen_kpath, gen_kmesh, gen_kdist | list induction, real arithmetic | `P_lat` | partial |
| C30 | base/lattice.py conversions, reset_lattice | real linear algebra | `P_lat` | partial |
| C31 | gen_lattice_vectors | trigonometry over the reals | `P_lat` | partial |
| C32 | rotations, spiral_prim_cell | isometries, invariance of amplitudes | `P_lat` | partial |
| C33 | SK.eval | polynomial identities modulo l^2+m^2+n^2=1, rotation of tensors | `P_sk` | proved |
| C34 | SK with complex parameters | Hermiticity by cases; witness | `P_sk` | partial |
| C35 | SOCTable, SOCTable2, SOC | finite tables, spectra, time reversal | `P_soc`, `P_soc2`, `P_soc3` | partial |
| C36 | lindhard.pyx grids | modular arithmetic | `P_lind` | proved |
| C37 | velocity of lindhard.pyx | derivatives over the reals | `P_lind` | proved |
| C38 | csr.F90, sample products | loops over compressed rows | `P_prop` | proved |
| C39 | Chebyshev propagation | recursion on an abstract operator | `P_prop` | proved |
| C40 | tbpm_dos, ldos, accond, dyn_pol, eigenstates and their reductions | loop invariants and sums over processes in any star ring | `P_tbpm` | proved |
| C41 | recursion.f90 with ldos_haydock | Lanczos tridiagonalisation, continued fractions over the reals | `P_hay` | proved |
| C42 | calc_psi_t, snapshots | loop invariant; witnesses | `P_psi` | partial |
| C43 | Analyzer.calc_dos | discrete Fourier transform over the reals | `P_ana`, `P_win` | partial |
| C44 | z2.py | parity argument, tracking by induction; witnesses | `P_z2` | partial |
| C45 | magnetic.py | bounds by Cauchy-Schwarz; cache as a state machine | `P_spin` | partial |
| C46 | Timer, ProgressBar | state machines over event lists | `P_util` | proved |
| C47 | wannier90.py without text parsing | sums over the file; witnesses | `P_wan` | partial |
| C48 | find_neighbors | completeness and order with the contract of KDTree | `P_neigh` | proved |
| C49 | trim in both layers | graph argument | `P_pc`, `P_super` | partial |
| C50 | apply_pbc | list reasoning | `P_pc` | proved |
| C51 | Fermi_dist | monotone and symmetric over the reals | `P_kpm` | proved |
| C52 | config.py | state machine of checked groups; witnesses | `P_util` | partial |
| C53 | inter-hoppings of supercells | list reasoning | `P_super` | partial |
| C54 | fft.F90 | recursion of the transform over any ring with roots | `P_fft` | proved |
| C55 | kernel polynomial moments | Chebyshev recursion in any star ring | `P_tbpm`, `P_kpm` | proved |
| C56 | save_array, load_array of Sample | file system as a map; witnesses | `P_save` | partial |
| C57 | supercell at k against its primitive cell | unitary folding of the whole matrix | `P_fold` | proved |
| C58 | set_k_point of Sample | phases over call sequences; witness | `P_save` | partial |
| C59 | AC conductivity of lindhard.py | Kubo-Greenwood sum; derivatives as velocities | `P_lind` | proved |
| C60 | dielectric functions of lindhard.py | direct; witness for lists | `P_lind` | partial |
| C61 | gen_seeds | list reasoning with arbitrary random numbers | `P_util` | proved |
| C62 | Wilson loop of z2.py | unitary similarity, reductions over processes | `P_z2` | proved |
| C63 | Bessel cut of solver.py | search invariant; witness | `P_psi` | proved |
| C64 | fermi_cheb_coef of kpm | Chebyshev interpolation through the transform; witness | `P_kpm` | proved |
| C65 | prefactors of analysis.py, extension factors of extend_prim_cell and merge_prim_cell | scaling; area and volume of extended cells with C16_extend; witnesses | `P_ana`, `P_extend` | partial |
| C66 | AtomicOrbital | algebra of ladder operators, arbitrary l | `P_lad` | proved |
| C67 | HopDict, apply_hop_dict | maps over all histories of assignments | `P_hopdict` | partial |
| C68 | materials/graphene.py | comparison of infinite crystals | `P_graphene` | partial |
| C69 | make_graphene_soc | comparison with the Kane-Mele formula; symmetries | `P_kane` | proved |
| C70 | materials/phosphorene.py | finite tables of decimals, symmetries of the infinite crystal | `P_phos` | proved |
| C71 | materials/antimonene.py | as C70, with spin | `P_anti` | proved |
| C72 | materials/tmdc.py | as C70, representation matrices with square roots | `P_tmdc` | proved |
| C73 | set_ham_dense of symmetric cells | intertwining, antiunitary operators, Kramers | `P_bands` | proved |
| C74 | find_neighbors and SK together | equivariance | `P_skcell` | partial |
| C75 | doubling by merge_prim_cell with L.S | equivariance under spin rotations and time reversal | `P_dbl` | partial |
| C76 | builder/overlap.py, zhegv branch of DiagSolver | generalised eigenproblem with the contract of zhegv | `P_over` | partial |
| C77 | matrices kept by DiagSolver between calls | state machine; witness | `P_over` | partial |
| C78 | cython/atom.pyx | differential equations and integrals over the reals | `P_atom` | proved |
| C79 | tbpm_dccond, calc_corr_dc_cond | loop invariants as C40; filter in the eigenbasis | `P_dc` | partial |
| C80 | calc_dc_cond, calc_diff_coeff | sums over the reals, trapezium rule | `P_dc` | proved |
| C81 | calc_hall_cond, cond_from_trace | derivatives of the standard library, sums over the eigenbasis | `P_resp` | proved |
| C82 | calc_ac_cond, scipy hilbert | telescoping sine sums | `P_resp` | proved |
| C83 | calc_dyn_pol, calc_epsilon, calc_epsilon_q0 | sums over the reals | `P_resp` | proved |
| C84 | two-time correlation functions | resolution of the identity in eigenvectors | `P_resp` | partial |
| C85 | print_hk as token lists | recursive-descent evaluator as specification; loop invariant on the dictionary of texts | `P_print` | proved |
| C86 | pictures as draw commands | loop over hopping terms, projection algebra, C11 and C14 for supercells | `P_view`, `P_viewinter` | proved |
| C87 | weights, errors and fit; the optimiser as a function with a contract | list algebra over the reals; NaN as None | `P_fit` | partial |
| C88 | twist angle, lattice of the bilayer, make_hetero_layer, alignment | trigonometry of the coincidence lattice, C18 and C32; search box arithmetic for the counterexample | `P_twist` | partial |
| C89 | broadening functions, energy grid, calc_dos of C27 over the reals | Gaussian integral by differentiation under the integral sign, arctangent, sums of counting functions | `P_broad` | proved |
| C90 | plot_wfc3d as a whole over set_cube of C78; text as a list of tokens | grammar with a unique reading, value of each grid point by induction over cells and orbitals, phases of the two conventions | `P_cube` | proved |
| C91 | plot_scalar, plot_vector, plot_wfc, plot_bands, plot_phases, _plot_model, Sample.plot as lists of draw commands | index arithmetic of mesh and reshape, rectangles of pixels, reduction to C86 and C23 | `P_field` | partial |
| C92 | the readers of wannier90.py on lists of lines: split, strip, int, float, block search, header arithmetic, nested reading of blocks | induction on strings and derivations of the layout grammar; both directions for words and numbers | `P_w90` | proved |
| C93 | random_state and init_seed with 32-bit integers that wrap around; the generator is a parameter | sums of exponential quantiles; congruences modulo 2^32; a set of 10000 seed pairs checked by computation | `P_random` | proved |
| C94 | paths, directories and files as a dictionary; a state monad for one process with the shared configuration; every calc_* as a sequence of its effects | a log of writes per call; injectivity of names; induction over sessions | `P_out` | partial |
| C95 | arrays with shape, strides, offset and memory; numpy flags; MPI operations on buffers | positions of contiguous arrays depend on order and shape only; sums of buffers item by item | `P_mem` | proved |
| C96 | cells with lattice, origin, orbitals and hoppings; conversion by the inverse lattice | conversion is the inverse of placing points (C30); rows of positions before and after; images in other cells | `P_cart` | proved |
| C97 | loop bodies as programs of single accesses to shared and private variables; threads with iterations, interleaved by a schedule | ownership: each item written by one iteration; invariant over schedules; contents by sequential reasoning inside an iteration | `P_loops`, `P_loopfft`, `P_looplind` | proved |
| C98 | PrimitiveCell.print as text: columns of ten characters, int and pair literals; banners | numerals by induction over digits; width bound gives blanks between words; reader of C92; amplitudes by C02 | `P_dump` | proved |

## What is modelled

| area | source | model | specification | properties |
|------|--------|-------|---------------|------------|
| hopping containers | `builder/base.py` IntraHopping, InterHopping, Observable, checks | `M_hop`, `M_inter`, `M_pc` | `S_pc`, `S_inter` | C01-C05, C13, C53 |
| primitive cells | `builder/primitive.py` all mutators, trim, apply_pbc, lock, sync with CPython hashing | `M_pc`, `M_sync` | `S_pc`, `S_sync` | C01-C06, C49, C50 |
| index arithmetic | `cython/super.pyx` id conversions, checks, searches, wrap and division | `M_index` | `S_index` | C07-C10 |
| supercells | `builder/super.py`, `cython/super.pyx` build_hop_*, split, trim, equivalents | `M_super` | `S_super`, `S_reach` | C05, C06, C11-C15, C49, C53 |
| construction | `builder/advanced.py` extend, reshape, merge, spiral | `M_build`, `M_reshape`, `M_lat` | `S_build`, `S_reshape` | C16-C19, C32 |
| Bloch Hamiltonians | `cython/primitive.pyx`, set_ham_dense, set_ham_csr | `M_bloch` | `S_bloch`, `S_fold` | C20-C22, C37, C57 |
| samples | `builder/sample.py`, `cython/sample.pyx`, save and load | `M_sample` | `S_sample`, `S_comp` | C20, C23-C26, C56, C58 |
| parallel | `parallel.py`, `utils.py` split_*, `diagonal/base.py` | `M_par` | `S_par` | C27 |
| Lindhard | `diagonal/lindhard.py`, `cython/lindhard.pyx`, `fortran/lindhard.f90` | `M_lind` | `S_lind` | C28, C36, C59, C60 |
| lattices and paths | `base/lattice.py`, `base/kpoints.py` | `M_lat` | `S_lat` | C29-C32 |
| Slater-Koster, SOC | `builder/advanced.py` SK, SOC, SOCTable, SOCTable2, AtomicOrbital | `M_sk`, `M_soc` | `S_sk`, `S_soc` | C33-C35, C66 |
| propagation | `fortran/csr.F90`, `propagation.f90`, `funcs.f90` | `M_prop`, `M_hay` | `S_prop`, `S_hay` | C38, C39, C41 |
| TBPM | `fortran/tbpm.f90`, (states as inputs), `tbpm/solver.py` | `M_tbpm` | `S_tbpm`, `S_dos` | C40-C42, C55, C61, C63, C64 |
| FFT | `fortran/fft.F90` | `M_fft` | `S_fft` | C54, C64 |
| analysis | `tbpm/analysis.py`, `kpm.f90`, `analysis.f90` | `M_ana` | `S_ana` | C43, C51, C65 |
| topology, spin | `diagonal/z2.py`, `diagonal/magnetic.py` | `M_z2`, `M_spin` | `S_z2`, `S_spin` | C44, C45, C62 |
| utilities | `utils.py` Timer, ProgressBar, gen_seeds; `tbpm/config.py` | `M_util` | `S_util` | C46, C52, C61 |
| hopping dictionaries | `builder/base.py` HopDict, `apply_hop_dict` | `M_hopdict` | `S_hopdict` | C67 |
| materials | `materials/*.py` | `M_graphene`, `M_kane`, `M_phos`, `M_anti`, `M_tmdc` | `S_mat`, `S_kane`, `S_phos`, `S_anti`, `S_tmdc` | C68-C72 |
| symmetries of bands | set_ham_dense on symmetric cells, SK cells, spin doubling | `M_skcell`, `M_dbl` | `S_bands`, `S_dbl` | C73-C75 |
| overlaps, reused solvers | `builder/overlap.py`, `diagonal/base.py` | `M_over` | `S_over` | C76, C77 |
| atomic wave functions | `cython/atom.pyx` | `M_atom` | `S_atom` | C78 |
| DC conductivity | `fortran/tbpm.f90` tbpm_dccond, `solver.py`, `analysis.py` | `M_dc` | `S_dc` | C79, C80 |
| response functions | `tbpm/analysis.py` calc_ac_cond, calc_dyn_pol, calc_epsilon, calc_epsilon_q0, calc_hall_cond | `M_resp` | `S_resp` | C81, C82, C83, C84 |
| printed formulas | `builder/primitive.py` f_dot_s, print_hk | `M_print` | `S_print` | C85 |
| pictures of models | `builder/visual.py`, PrimitiveCell.plot, SuperCell.plot, SCInterHopping.plot | `M_view` | `S_view` | C86 |
| parameter fitting | `builder/advanced.py` ParamFit | `M_fit` | `S_fit` | C87 |
| twisted bilayers | `builder/advanced.py` make_hetero_layer, `examples/advanced/tbg.py` | `M_twist` | `S_twist` | C88 |
| broadening | `diagonal/base.py` gaussian, lorentzian, grid of calc_dos | `M_broad` | `S_broad` | C89 |
| pictures of data | `visual.py` plot_scalar, plot_vector, plot_wfc, plot_bands, plot_phases, _plot_model; Sample.plot | `M_field` | `S_field` | C91 |
| cube files | `visual.py` plot_wfc3d | `M_cube` | `S_cube` | C90 |
| files of Wannier90 | `adapter/wannier90.py` read_lat_vec, read_orb_pos, read_hop, read_wsvec, wan2pc from text | `M_w90` | `S_w90` | C92 |
| random states | `fortran/random.f90` | `M_random` | `S_random` | C93 |
| output of TBPM | `tbpm/solver.py` __init__, set_output, save_config, _dist_sample, _save_data and the files of all calc_*; `OPEN` in `tbpm.f90` | `M_out` | `S_out` | C94 |
| arrays in memory | `parallel.py` __get_array_order, reduce, all_reduce, average, all_average, bcast | `M_mem` | `S_mem` | C95 |
| Cartesian positions | `builder/primitive.py` add_orbital_cart, set_orbital_cart, orb_pos_nm, orb_pos_ang, dr, dr_nm, dr_ang | `M_cart` | `S_cart` | C96 |
| OpenMP loops | every `!$OMP PARALLEL DO` of `fortran/` math, csr, fft, funcs, kpm, lindhard, random, tbpm, analysis | `M_omp`, `M_loops` | `S_loops` | C97 |
| printed cells, banners | `builder/primitive.py:730-752` print, `utils.py:355-403` | `M_dump` | `S_dump` | C98 |
| neighbours, Wannier90 | find_neighbors, `adapter/wannier90.py` | `M_neigh`, `M_wan` | `S_neigh`, `S_wan` | C47, C48 |

## What is not modelled

* Floating-point rounding, overflow of C integers other than C07, speed, memory.
* LAPACK, ARPACK, scipy and MPI themselves: eigensolvers, sparse products and
  reductions are parameters with a contract.  MKL and FFTW branches.
* Non-ASCII text, inf, nan and underscores in numbers of Wannier90 files,
  plotting (colours, styles and axis labels), text of complex numbers, `TestHelper`.

## External contracts

Each is a hypothesis of the theorems that need it, together with an example
showing that something satisfies it.

* ring, conjugation, phase and inverse laws (`ScalarLaws`, `StarLaws`,
  `PhaseLaws`, `RealLaws`), proved for `Z`, `Qc`, `R` and pairs of reals;
* `argsort` returns a sorting permutation (C24); `KDTree` returns the pairs
  within the radius (C48); eigensolvers return the same multiset for unitarily
  similar matrices (C62) or eigenpairs (C45, C59);
* the numbers of RANDOM_NUMBER, Bessel values and clocks are arbitrary inputs (how states are
  made of the numbers and the seed is C93);
* `scipy.optimize.leastsq` returns a local minimum when it reports success (C87);
  numpy's FFT is its defining sum (C43), `scipy.signal.hilbert` its definition by FFT (C82); 3x3 solves are exact (C30).

## Findings

Where the faithful model does not satisfy a property as stated, the refutation
is a theorem with a concrete witness.  A property has the status `partial` if
its statement, read literally, covers cases in which it is false or not
decided; its note names them.  The refutations are listed in `MANIFEST.json` with
the part that is proved: `C03_negative_index_refuted`, `C04_remove_orbitals_refuted`, `C05_failed_constructor_refuted`, `C05_inter_lock_refuted`, `C06_hash_refuted`, `C06_supercell_refuted`, `C07_int32_refuted`, `C08_set_vacancies_default_refuted`, `C15_integer_columns_refuted`, `C15_no_duplicates_refuted`, `C15_late_vacancies_refuted`, `C18_reshape_refuted`, `C18_long_cell_refuted`, `C19_index_error_refuted`, `C19_failed_merge_changes_input_refuted`, `C23_duplicates_refuted`, `C24_cutoff_refuted`, `C25_default_bound_refuted`, `C25_default_twice_refuted`, `C25_forced_refuted`, `C26_gauge2_refuted`, `C26_periodic_refuted`, `C27_idle_process_refuted`, `C28_processes_refuted`, `C28_tilted_refuted`, `C29_zero_segment_refuted`, `C30_rows_refuted`, `C32_integer_refuted`, `C34_complex_refuted`, `C39_short_refuted`, `C40_norm_check_refuted`, `C40_no_steps_refuted`, `C41_average_refuted`, `C42_order_refuted`, `C42_repeated_refuted`, `C42_empty_refuted`, `C43_zero_refuted`, `C44_on_reference_refuted`, `C44_refuted`, `C45_stale_refuted`, `C46_bar_scales_refuted`, `C47_overwrite_refuted`, `C47_degeneracy_refuted`, `C52_unchecked_refuted`, `C52_file_refuted`, `C53_bounds_refuted`, `C54_length_refuted`, `C56_stale_refuted`, `C56_mixed_refuted`, `C58_second_call_refuted`, `C60_list_refuted`, `C61_number_refuted`, `C63_short_refuted`, `C64_short_refuted`, `C65_ac_refuted`, `C65_merge_refuted`, `C67_refused_stored_refuted`, `C67_reuse_refuted`, `C67_small_diagonal_refuted`, `C67_inconsistent_refuted`, `C68_complex_refuted`, `C68_thickness_refuted`, `C71_rotation_soc_refuted`, `C76_stale_refuted`, `C76_projection_refuted`, `C77_resized_refuted`, `C78_nucleus_refuted`, `C80_spin_refuted`, `C85_rounding_refuted`, `C86_half_refuted`, `C86_replaced_refuted`, `C87_integers_refuted`, `C87_zeros_refuted`, `C88_large_refuted`, `C88_clockwise_refuted`, `C90_rnmax_refuted`, `C90_edge_refuted`, `C91_image_refuted`, `C91_no_hopping_refuted`, `C92_truncated_refuted`, `C92_capitals_refuted`, `C92_per_line_refuted`, `C93_period_refuted`, `C93_odd_refuted`, `C93_chance_refuted`, `C94_stale_refuted`, `C94_dc_refuted`, `C94_text_refuted`, `C94_same_second_refuted`, `C95_mixed_refuted`, `C97_shared_k_refuted`, `C97_shared_sum_refuted`, `C98_columns_refuted`.

## Trusted base

* Coq 8.16.1: its kernel, and `vm_compute` in examples and finite tables.
* The reading of the source recorded at each definition, and the statements in
  `S_*.v` and `P_*.v`.
* Axioms of the standard library, only through `Reals`:
  `ClassicalDedekindReals.sig_forall_dec`, `ClassicalDedekindReals.sig_not_dec`,
  `FunctionalExtensionality.functional_extensionality_dep` and
  `Classical_Prop.classic`.  No other axiom, parameter or admitted proof.

What `Print Assumptions` reports, theorem by theorem:

**none (closed under the global context)** (253 theorems): `C01_cell_refines_spec`, `C01_cell_refines_spec`, `C01_get_hopping_latest`, `C01_hermitian`, `C02_arrays`, `C03_negative_index_refuted`, `C03_order_and_multiplicity`, `C03_remove_orbitals`, `C04_rejected_calls_change_nothing`, `C04_remove_orbitals_refuted`, `C05_failed_constructor_refuted`, `C05_inter_lock`, `C05_inter_lock_refuted`, `C05_locked_cell_cannot_change`, `C05_locked_supercell`, `C06_fresh_partial`, `C06_hash_complex`, `C06_hash_refuted`, `C06_hash_values`, `C06_supercell_partial`, `C06_supercell_refuted`, `C07_bijection`, `C07_int32_refuted`, `C07_int32_safe`, `C08_add_vacancies`, `C08_add_vacancies_bad`, `C08_enumeration`, `C08_inverse`, `C08_num_orb`, `C08_pc2sc`, `C08_sc2pc`, `C08_set_vacancies_default_refuted`, `C09_pc2sc_array`, `C09_sc2pc_array`, `C09_search`, `C10_wrap_div`, `C11_buffer`, `C11_images`, `C12_fast_general`, `C13_unambiguous`, `C14_displacement`, `C15_integer_columns_refuted`, `C15_late_vacancies_refuted`, `C15_no_duplicates_refuted`, `C15_overlay_partial`, `C16_extend`, `C16_refused`, `C17_same_as_supercell`, `C18_long_cell_refuted`, `C18_reshape_partial`, `C18_reshape_refuted`, `C19_failed_merge_changes_input_refuted`, `C19_index_error_refuted`, `C19_merge`, `C19_refused`, `C20_dense`, `C20_refused`, `C20_sample`, `C20_sample_refused`, `C21_bands_periodic`, `C21_gauge`, `C21_periodic`, `C22_csr`, `C23_components`, `C23_duplicates_refuted`, `C23_energies_positions`, `C23_hoppings`, `C23_reset`, `C24_builders`, `C24_cutoff_refuted`, `C25_default_bound_refuted`, `C25_default_twice_refuted`, `C25_forced_refuted`, `C25_history`, `C25_last_factor`, `C26_calls`, `C26_flux`, `C26_gauge`, `C26_gauge2_no_flux`, `C26_phases`, `C27_bands`, `C27_bands_failure`, `C27_bounds`, `C27_dos`, `C27_idle_process`, `C27_idle_process_refuted`, `C27_ranks`, `C27_split_list`, `C27_split_list_bad`, `C27_split_range`, `C27_split_range_zero`, `C27_states`, `C27_states_failure`, `C27_sums`, `C36_lookup`, `C36_mesh`, `C36_wrap_grid`, `C36_wrap_grid_unique`, `C38_kernels`, `C38_sample_product`, `C39_adjoint`, `C39_eigenvector`, `C39_fermi`, `C39_short_refuted`, `C39_timestep`, `C40_ac_cond`, `C40_dos`, `C40_dyn_pol`, `C40_ldos`, `C40_no_steps_refuted`, `C40_norm_check_refuted`, `C40_process_count`, `C40_quasi_eigenstates`, `C40_seed_zero`, `C42_empty_refuted`, `C42_order_refuted`, `C42_repeated_refuted`, `C42_snapshots`, `C46_bar`, `C46_bar_few`, `C46_bar_scales_refuted`, `C46_report`, `C46_report_total`, `C46_tic_twice`, `C46_toc`, `C47_corrected_partial`, `C47_degeneracy_ignored`, `C47_degeneracy_refuted`, `C47_missing`, `C47_overwrite_refuted`, `C47_plain`, `C47_unlisted`, `C48_complete`, `C48_default`, `C48_errors`, `C48_mutual`, `C49_supercell_trim`, `C49_trim`, `C50_apply_pbc`, `C52_checked`, `C52_file_accepted`, `C52_file_refuted`, `C52_unchecked_refuted`, `C53_bounds_refuted`, `C53_inter_hoppings`, `C54_algebra`, `C54_length_refuted`, `C55_current_hermitian`, `C55_moments`, `C56_idempotent`, `C56_mixed_refuted`, `C56_roundtrip`, `C56_roundtrip_fresh`, `C56_stale_refuted`, `C57_folding`, `C58_calls_add`, `C58_first_call`, `C60_list_refuted`, `C61_number_refuted`, `C61_range`, `C61_seeds`, `C63_bessel`, `C63_short_refuted`, `C65_merge_refuted`, `C65_merged`, `C67_apply`, `C67_fill`, `C67_inconsistent_refuted`, `C67_locked`, `C67_refused_stored_refuted`, `C67_reuse_refuted`, `C67_small_diagonal_refuted`, `C76_container`, `C76_conventions`, `C76_energies`, `C76_matrix`, `C76_onsite_only`, `C76_periodic`, `C76_solver`, `C77_resized`, `C77_reuse_partial`, `C79_corr`, `C82_dimension`, `C86_cell`, `C86_half_refuted`, `C86_illegal`, `C86_inter`, `C86_mirror`, `C86_replaced_refuted`, `C86_super`, `C90_unique`, `C91_cell`, `C91_no_hopping_refuted`, `C91_sample`, `C91_sample_plot`, `C92_int`, `C92_words`, `C92_wsvec`, `C93_default`, `C94_config`, `C94_dc_refuted`, `C94_failed`, `C94_illegal`, `C94_last`, `C94_names`, `C94_nested`, `C94_place`, `C94_same_second_refuted`, `C94_saved`, `C94_single`, `C94_stale_refuted`, `C94_text_refuted`, `C94_untouched`, `C94_value`, `C94_worker`, `C95_all_average`, `C95_all_reduce`, `C95_average`, `C95_bcast`, `C95_gaps`, `C95_integers`, `C95_mixed_refuted`, `C95_one_dimension`, `C95_reduce`, `C95_serial`, `C95_surroundings`, `C97_ac_pairs`, `C97_cheb`, `C97_csr`, `C97_current`, `C97_dc_cond`, `C97_density`, `C97_fermi`, `C97_fft`, `C97_finishes`, `C97_gamma`, `C97_haydock`, `C97_jackson`, `C97_kbdc`, `C97_normalise`, `C97_pairs`, `C97_phase`, `C97_quasi_eigenstates`, `C97_response`, `C97_shared_k_refuted`, `C97_shared_sum_refuted`, `C97_trace`, `C97_vector_combine`, `C97_vector_copy`, `C97_vector_operation`, `C97_vector_scale`, `C98_banner`, `C98_int`.

**`sig_forall_dec`** (6 theorems): `C30_rows_refuted`, `C45_failure`, `C45_history`, `C45_layouts`, `C45_stale`, `C96_distances_origin`.

**`sig_forall_dec`, `functional_extensionality_dep`** (61 theorems): `C18_crystal_partial`, `C28_constructor`, `C29_high_symmetric`, `C29_mesh`, `C29_mesh_refused`, `C29_path`, `C29_path_refused`, `C29_zero_segment_refuted`, `C30_inverse`, `C30_reset_lattice`, `C30_reset_refused`, `C36_wrap_frac`, `C36_wrap_frac_unique`, `C41_green`, `C41_unique`, `C44_on_reference_refuted`, `C44_parity`, `C45_bound`, `C45_eval`, `C45_expectation`, `C45_stale_refuted`, `C66_product`, `C66_z`, `C85_refused`, `C87_errors`, `C87_fit`, `C87_integers_refuted`, `C87_rejects`, `C87_relative`, `C87_zero`, `C87_zeros_refuted`, `C89_default_range`, `C89_grid`, `C89_reversed`, `C90_phase`, `C91_bands`, `C91_image`, `C91_image_refuted`, `C91_shapes_refused`, `C91_wfc`, `C92_capitals_refuted`, `C92_centres`, `C92_empty_line`, `C92_files`, `C92_float`, `C92_hop`, `C92_lattice`, `C92_missing`, `C92_no_block`, `C92_per_line_refuted`, `C92_truncated_refuted`, `C92_unit`, `C96_add`, `C96_distances`, `C96_refused`, `C96_set`, `C96_set_keeps`, `C96_units`, `C96_write_back`, `C98_cell`, `C98_columns_refuted`.

**`sig_forall_dec`, `sig_not_dec`, `functional_extensionality_dep`** (161 theorems): `C25_default_bound_partial`, `C26_gauge2_refuted`, `C26_periodic_refuted`, `C28_arbitrary`, `C28_area`, `C28_regular`, `C28_regular_arbitrary`, `C28_single_process`, `C28_tilted_refuted`, `C28_too_many_processes`, `C29_distance`, `C30_area_volume`, `C30_reciprocal`, `C30_singular`, `C31_admissible`, `C31_flat`, `C31_vectors`, `C32_compose`, `C32_integer_refuted`, `C32_isometry`, `C32_refused`, `C32_rotation`, `C32_spiral`, `C32_spiral_refused`, `C33_axis`, `C33_complex`, `C33_illegal`, `C33_rotation`, `C33_short`, `C33_tensor`, `C34_complex`, `C34_complex_refuted`, `C34_hermitian`, `C35_hermitian`, `C35_illegal`, `C35_shells`, `C35_spec`, `C35_spectrum`, `C35_table`, `C35_table2`, `C35_time_reversal`, `C35_trace`, `C37_gradient`, `C37_hermitian`, `C41_average_refuted`, `C41_depth`, `C41_exact`, `C41_ldos_positive`, `C41_ldos_seed`, `C41_ldos_site`, `C41_processes`, `C41_tridiagonal`, `C43_dos`, `C43_peak`, `C43_zero_refuted`, `C44_nothing_lost`, `C44_tracked`, `C44_values`, `C51_fermi`, `C51_symmetric`, `C54_fft`, `C54_inverse`, `C55_trace_real`, `C55_weights_hermitian`, `C57_kpoint`, `C58_second_call_refuted`, `C59_illegal`, `C59_kubo`, `C60_epsilon`, `C60_epsilon_q0`, `C60_q0_layer`, `C62_gauge`, `C62_phases`, `C64_coefficients`, `C64_occupation`, `C64_operator`, `C64_short_refuted`, `C64_unset_memory`, `C65_ac_inputs`, `C65_ac_refuted`, `C65_dc_intensive`, `C65_extended`, `C66_adjoint`, `C66_casimir`, `C66_commutators`, `C66_legal`, `C66_minus`, `C66_plus`, `C68_complex_refuted`, `C68_diamond`, `C68_rect`, `C68_rect_real`, `C68_reshaped`, `C68_thickness_refuted`, `C69_hamiltonian`, `C69_symmetries`, `C70_bonds`, `C70_symmetries`, `C71_rotation`, `C71_rotation_soc_refuted`, `C71_symmetries`, `C72_refused`, `C72_symmetries`, `C73_antimonene`, `C73_bands`, `C73_compose`, `C73_kane_mele`, `C73_kramers`, `C73_tmdc`, `C74_graphene`, `C74_symmetric`, `C75_built`, `C75_kramers`, `C75_mos2`, `C75_symmetric`, `C76_projection_refuted`, `C76_stale_refuted`, `C77_resized_refuted`, `C78_cube`, `C78_nucleus`, `C78_nucleus_refuted`, `C78_schroedinger`, `C78_unsupported`, `C79_corr_energies`, `C79_defined`, `C79_filter`, `C79_normalisation`, `C80_dc_cond`, `C80_diff_coeff`, `C80_einstein`, `C80_spin_quadruple`, `C80_spin_refuted`, `C81_unit`, `C82_ac`, `C82_static`, `C83_dyn_pol`, `C83_epsilon`, `C83_epsilon_q0`, `C83_errors`, `C83_q_zero`, `C83_static`, `C84_ac_pairs`, `C84_balance`, `C84_dyn_pol_pairs`, `C84_optical`, `C85_deterministic`, `C85_exact`, `C85_exact_2`, `C85_once`, `C85_rounding_refuted`, `C88_spiral`, `C89_illegal`, `C90_atoms`, `C90_bloch`, `C90_convention`, `C90_edge_refuted`, `C90_file`, `C90_periodic`, `C90_rnmax_refuted`, `C91_phases`, `C91_vector`.

**`sig_forall_dec`, `sig_not_dec`, `classic`, `functional_extensionality_dep`** (25 theorems): `C28_processes_refuted`, `C43_window_shape`, `C43_windows`, `C44_refuted`, `C51_decreasing`, `C78_orthonormal`, `C81_bastin`, `C81_derivative`, `C81_hall`, `C85_print_hk`, `C88_aligned`, `C88_clockwise_refuted`, `C88_commensurate`, `C88_graphene`, `C88_large_refuted`, `C88_layers`, `C88_series`, `C89_shape`, `C89_states`, `C93_chance_refuted`, `C93_nan`, `C93_odd_refuted`, `C93_period_refuted`, `C93_reproducible`, `C93_state`.

## Seeded bugs

`seeded/LOG.jsonl` records edits of the model in a scratch copy: the definition,
the edit, the claim it breaks, the theorems that failed and the theorems
tightened as a result.  How far this evidence goes:

- A build stops at the first proof that fails.  Where `failed_proofs` names one
  with the word "first", only that failure was observed; `theorems_failed` then
  lists the theorems that depend on this proof, directly or through lemmas.
- A proof may fail because its script repeats text of the model, although its
  statement still holds of the edited program.  Entries were not checked for
  this one by one.  It was found for two edits of `merge` (w65_3, w65_4), and the
  theorem `C65_merged` was added.
- Edits with status `SURVIVED` failed no proof.  Most led to a stronger theorem,
  named in `theorems_tightened`; two are in refusals that no call reaches.
- Four edits failed only an example or a lemma on which no listed theorem
  depends (w103, w126, w128, w3_13).
