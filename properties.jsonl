{"id": "C01", "title": "Hopping terms of a primitive cell behave as a Hermitian map", "statement": "After any sequence of PrimitiveCell.add_hopping / remove_hopping / get_hopping calls, get_hopping(rn, i, j) returns the value most recently added at (rn, i, j), or the complex conjugate of the value most recently added at the conjugate key (-rn, j, i), whichever is later; it reports not-found exactly when the last call touching that pair of keys was a removal or there was none. Calls on other pairs never change the answer, and get_hopping(rn,i,j) is always the conjugate of get_hopping(-rn,j,i).", "quantifier": "every operation history, every cell index, orbital pair and energy", "why_tests_cant": "the number of histories is unbounded; a wrong conjugation or a key collision shows only for particular signs of the three cell-index components combined with particular orbital orders", "anchors": ["tbplas/builder/base.py:IntraHopping", "tbplas/builder/base.py:check_conj", "tbplas/builder/primitive.py:PrimitiveCell.add_hopping", "tbplas/builder/primitive.py:PrimitiveCell.get_hopping", "tbplas/builder/primitive.py:PrimitiveCell.remove_hopping"]}
{"id": "C02", "title": "The hopping arrays list each conjugate pair once, in range, off-diagonal", "statement": "In every state reachable by the public mutators of PrimitiveCell (with non-negative removal indices), the exported hop_ind/hop_eng rows contain every stored hopping exactly once, never contain both a term and its conjugate, never contain a diagonal term (0,0,0,i,i), and reference only existing orbitals; num_hop equals the number of rows.", "quantifier": "every sequence of add_orbital, remove_orbitals, add_hopping, remove_hopping, trim, apply_pbc calls, including failing ones", "why_tests_cant": "duplicated or conjugate-duplicated rows double the matrix element in every later Hamiltonian; only an invariant over all histories excludes them", "anchors": ["tbplas/builder/base.py:IntraHopping.to_array", "tbplas/builder/base.py:IntraHopping.num_hop", "tbplas/builder/primitive.py:PrimitiveCell._check_hop_index"]}
{"id": "C03", "title": "Removing orbitals renumbers hoppings consistently", "statement": "PrimitiveCell.remove_orbitals(indices) with valid non-negative indices removes exactly these orbitals, keeps the others in order, deletes exactly the hoppings touching a removed orbital, and every surviving hopping connects the same two physical orbitals with the same cell index and energy under the new numbering. The order and multiplicity of the indices do not matter.", "quantifier": "every cell, every index list", "why_tests_cant": "the renumbering must agree between an orbital list shrunk one pop at a time and hopping keys shifted by counting; off-by-one errors depend on the relative order of removed and surviving indices", "anchors": ["tbplas/builder/primitive.py:PrimitiveCell.remove_orbitals", "tbplas/builder/base.py:IntraHopping.remove_orbitals"]}
{"id": "C04", "title": "Rejected calls leave a primitive cell unchanged", "statement": "Every PrimitiveCell mutator that raises (LockError, PCOrbIndexError, PCHopDiagonalError, CellIndexLenError, OrbPositionLenError, PCHopNotFoundError) raises exactly under its documented condition and leaves orbitals and hoppings as they were.", "quantifier": "every cell state and every argument", "why_tests_cant": "partial updates on error paths corrupt the model silently; tests only exercise a few error paths on one small cell", "anchors": ["tbplas/builder/primitive.py:PrimitiveCell.add_hopping", "tbplas/builder/primitive.py:PrimitiveCell.remove_orbitals", "tbplas/builder/primitive.py:PrimitiveCell.set_orbital"]}
{"id": "C05", "title": "A locked model cannot be changed through its mutators", "statement": "Once a PrimitiveCell has been used to build a SuperCell (or an inter-hopping container has been locked by a Sample), any sequence of mutator calls raises LockError and leaves orbitals and hoppings unchanged until unlock() is called; a failed construction does not leave its inputs locked.", "quantifier": "every sequence of mutator calls after lock", "why_tests_cant": "one mutator without the check is enough to desynchronise derived supercells, and it can appear anywhere in the history", "anchors": ["tbplas/builder/base.py:Observable", "tbplas/builder/base.py:InterHopping", "tbplas/builder/super.py:OrbitalSet.__init__", "tbplas/builder/sample.py:Sample.__init__"]}
{"id": "C06", "title": "Synchronised arrays are never stale", "statement": "After sync_array() (called by every consumer), the arrays orb_pos, orb_eng, hop_ind, hop_eng of a PrimitiveCell describe exactly the orbitals and hoppings currently stored, whatever edits and synchronisations happened before.", "quantifier": "every history of edits and synchronisations, every energy, position and index value", "why_tests_cant": "staleness depends on a hash comparison: it needs two different contents with equal hash, which random tests practically never hit but concrete physical inputs do", "anchors": ["tbplas/builder/primitive.py:PrimitiveCell.sync_orb", "tbplas/builder/primitive.py:PrimitiveCell.sync_hop", "tbplas/builder/primitive.py:PrimitiveCell._update_attr_hash"]}
{"id": "C07", "title": "Primitive/supercell index conversion is a bijection without vacancies", "statement": "For every supercell dimension and number of orbitals, orb_id_pc2sc maps the index tuples (ia,ib,ic,io) in range one-to-one onto 0..num_orb_sc-1, row by row in the order of orb_id_pc, and orb_id_sc2pc is its inverse.", "quantifier": "all dimensions, orbital counts, and index tuples", "why_tests_cant": "all sizes; a transposed stride still works on cubic test cells", "anchors": ["tbplas/cython/super.pyx:_id_pc2sc", "tbplas/cython/super.pyx:build_orb_id_pc", "tbplas/builder/super.py:OrbitalSet.orb_id_sc2pc", "tbplas/builder/super.py:OrbitalSet.orb_id_pc2sc"]}
{"id": "C08", "title": "Vacancies are skipped consistently in both index directions", "statement": "With any set of vacancies, num_orb_sc equals na*nb*nc*num_orb_pc minus the number of distinct vacancies; orb_id_sc2pc enumerates exactly the non-vacancy tuples in lexicographic order; orb_id_pc2sc is its inverse; a vacancy is rejected.", "quantifier": "all dimensions and vacancy sets", "why_tests_cant": "the answer is `linear index minus number of vacancies below it`; errors appear only for special positions of vacancies (first, last, adjacent)", "anchors": ["tbplas/cython/super.pyx:_id_pc2sc_vac", "tbplas/cython/super.pyx:build_orb_id_pc", "tbplas/cython/super.pyx:build_vac_id_sc", "tbplas/builder/super.py:OrbitalSet"]}
{"id": "C09", "title": "Bisection and linear vacancy search agree", "statement": "For every sorted vacancy list and index, the bisection search used for single conversions, the linear search, and the array versions return the same supercell index, and they terminate.", "quantifier": "all strictly increasing vacancy lists, all indices", "why_tests_cant": "bisection termination and boundary handling over all list lengths cannot be settled by examples", "anchors": ["tbplas/cython/super.pyx:_id_pc2sc_vac2", "tbplas/cython/super.pyx:_id_pc2sc_vac", "tbplas/cython/super.pyx:id_pc2sc_array"]}
{"id": "C10", "title": "Periodic wrapping and cell division are Euclidean", "statement": "Wrapping a cell index into the supercell gives the mathematical remainder in [0, n) along periodic directions and leaves it unchanged or flags it (-1) along open directions; the accompanying supercell index is the floor quotient, so unwrapped = n*quotient + remainder for every integer.", "quantifier": "all integers ji, all ni>0, both boundary conditions", "why_tests_cant": "negative indices and exact multiples are where C-style division goes wrong; the loops' termination needs an argument", "anchors": ["tbplas/cython/super.pyx:_wrap_pbc", "tbplas/cython/super.pyx:_fast_div"]}
{"id": "C11", "title": "A supercell contains exactly the images of the primitive hoppings", "statement": "Supercell hoppings produced by SuperCell.get_hop (without modifier) are exactly: for every non-vacant orbital site and every primitive hopping starting there, the term to its translated partner, dropped iff the partner leaves the sample in an open direction or is a vacancy; each (site, primitive hopping) pair contributes at most one row, and energies are copied.", "quantifier": "all cells, dimensions, boundary conditions, vacancy sets", "why_tests_cant": "a missed or doubled image appears only at particular boundaries/vacancies", "anchors": ["tbplas/cython/super.pyx:build_hop_gen", "tbplas/builder/super.py:SuperCell._init_hop_gen"]}
{"id": "C12", "title": "Fast and general supercell hopping constructions agree", "statement": "For a supercell without vacancies, the fast path (split into periodic and free parts) yields the same multiset of hopping rows (i, j, energy, dr) as the general path.", "quantifier": "all cells, dimensions, boundary conditions without vacancies", "why_tests_cant": "two independent algorithms must agree for every input; the dispatch depends on hidden state", "anchors": ["tbplas/builder/super.py:SuperCell._init_hop_fast", "tbplas/cython/super.pyx:split_pc_hop", "tbplas/cython/super.pyx:build_hop_pbc"]}
{"id": "C13", "title": "The minimum-size check makes supercell hopping terms unambiguous", "statement": "When a supercell passes the dimension check (dim >= 2*max|rn|+1 along every direction), no two different (site, primitive hopping) pairs yield the same ordered (i,j) pair, and none yields the reverse pair (j,i) of another or itself.", "quantifier": "all reduced primitive hopping tables and dimensions passing the check", "why_tests_cant": "the CSR builder (no-duplicate assumption), modifier lookup and trimming silently rely on this", "anchors": ["tbplas/builder/super.py:OrbitalSet.__init__", "tbplas/cython/super.pyx:build_hop_gen"]}
{"id": "C14", "title": "Hopping displacements are the physical ones", "statement": "The dr attached to each supercell hopping equals the Cartesian difference between the ket orbital's position in the (unwrapped) neighbouring cell and the bra orbital's position, i.e. the primitive-cell displacement of the hopping it comes from, for any cell, wrapped or not.", "quantifier": "all cells, dims, boundary conditions", "why_tests_cant": "wrong image offsets only show in the phase for particular wraps", "anchors": ["tbplas/cython/super.pyx:build_hop_gen", "tbplas/cython/super.pyx:build_orb_pos", "tbplas/builder/primitive.py:PrimitiveCell.dr"]}
{"id": "C15", "title": "Modified supercell hoppings override, extend and never duplicate", "statement": "SuperCell.add_hopping followed by get_hop replaces the energy of the existing term between the two orbitals (in either orientation, conjugated as needed) or appends one new term; all other terms are unchanged and the index columns keep integer type.", "quantifier": "all supercells and all sequences of add_hopping calls", "why_tests_cant": "orientation and cell index of the stored term are chosen internally", "anchors": ["tbplas/builder/super.py:SuperCell.add_hopping", "tbplas/builder/super.py:SuperCell.get_hop", "tbplas/cython/super.pyx:find_equiv_hopping"]}
{"id": "C16", "title": "extend_prim_cell reproduces the original crystal", "statement": "extend_prim_cell(cell, dim) yields a cell with dim_a*dim_b*dim_c*num_orb orbitals whose hopping between any orbital copies equals the original hopping at the unfolded cell index; no term is lost, duplicated, overwritten or turned diagonal.", "quantifier": "all cells, all dimensions >= 1", "why_tests_cant": "collisions or overwritten conjugates occur only for particular hopping ranges vs dimensions (hoppings longer than the extended cell)", "anchors": ["tbplas/builder/advanced.py:extend_prim_cell", "tbplas/builder/advanced.py:OrbitalMap"]}
{"id": "C17", "title": "Index arithmetic in extend_prim_cell matches the supercell's", "statement": "Orbital k of extend_prim_cell(cell, dim) is the same (cell, orbital) as orbital k of SuperCell(cell, dim), and a fully periodic supercell has the same hopping terms (with the cell index of extend_prim_cell dropped).", "quantifier": "all cells and dims passing the size check", "why_tests_cant": "two independent implementations (Python dict vs Cython) of the same numbering", "anchors": ["tbplas/builder/advanced.py:extend_prim_cell", "tbplas/cython/super.pyx:build_hop_gen"]}
{"id": "C18", "title": "reshape_prim_cell keeps every orbital of the new cell", "statement": "reshape_prim_cell(cell, lat_frac) returns a cell containing one representative of every translational class of orbitals, i.e. |det(lat_frac)|*num_orb orbitals.", "quantifier": "all integer reshape matrices with non-zero determinant", "why_tests_cant": "the search box is derived from sums of lattice vectors; only particular matrices escape it", "anchors": ["tbplas/builder/advanced.py:reshape_prim_cell"]}
{"id": "C19", "title": "merge_prim_cell assembles block cells", "statement": "merge_prim_cell(c1,..,cn, inter-hoppings) yields the concatenation of the orbitals; hopping between orbitals of the same input cell are those of that cell, between different inputs exactly those of the inter-hopping containers; nothing else.", "quantifier": "all lists of compatible cells and containers", "why_tests_cant": "offset bookkeeping errors appear only for 3+ cells or unusual argument order", "anchors": ["tbplas/builder/advanced.py:merge_prim_cell"]}
{"id": "C20", "title": "Bloch Hamiltonians are Hermitian", "statement": "set_ham_dense(k) produces a Hermitian matrix for every k-point, both conventions, for every primitive cell and every sample, regardless of complex hopping energies.", "quantifier": "all models, all k", "why_tests_cant": "an asymmetric phase shows only at generic k and complex hopping", "anchors": ["tbplas/cython/primitive.pyx:set_ham", "tbplas/builder/primitive.py:PrimitiveCell.set_ham_dense", "tbplas/cython/sample.pyx:fill_ham", "tbplas/cython/sample.pyx:build_hop_k"]}
{"id": "C21", "title": "Convention 1 and 2 are unitarily equivalent, convention 2 is periodic", "statement": "H1(k) = U(k)^* H2(k) U(k) with U(k) the diagonal matrix of exp(2 pi i k.tau); H2(k+G) = H2(k) for integer G; hence bands do not depend on the convention and are periodic.", "quantifier": "all models, all k, all integer G", "why_tests_cant": "a sign error in one convention still gives plausible bands at special points", "anchors": ["tbplas/cython/primitive.pyx:set_ham"]}
{"id": "C22", "title": "Dense and sparse Bloch Hamiltonians coincide", "statement": "set_ham_csr(k) represents the same matrix as set_ham_dense(k) for every primitive cell and every k, in both conventions.", "quantifier": "all models, all k, both conventions", "why_tests_cant": "two code paths with different duplicate semantics (overwrite/accumulate)", "anchors": ["tbplas/builder/primitive.py:PrimitiveCell.set_ham_csr", "tbplas/builder/primitive.py:PrimitiveCell.set_ham_dense"]}
{"id": "C23", "title": "Sample arrays are block concatenations", "statement": "init_orb_eng/init_orb_pos/init_hop concatenate component arrays and shift hopping indices by the number of orbitals of the preceding supercells, so that a hopping of component s connects the same orbitals in the sample; inter-hoppings are shifted with the bra offset for bra and the ket offset for ket.", "quantifier": "all numbers and sizes of components", "why_tests_cant": "offset errors only show with three or more components or asymmetric sizes", "anchors": ["tbplas/builder/sample.py:Sample._get_ind_start", "tbplas/builder/sample.py:Sample.init_hop"]}
{"id": "C24", "title": "The three sparse Hamiltonian builders agree", "statement": "build_ham_dxy_fast, build_ham_dxy_safe and build_ham_csr represent the same Hermitian matrix for every duplicate-free hopping list; the CSR arrays are well formed (monotone indptr, in-range column indices, no unfilled slots) and dx, dy are antisymmetric with the entries dr of the hopping.", "quantifier": "all orbital energies and hopping lists", "why_tests_cant": "slot allocation in flat arrays goes wrong only for particular degree distributions or zero on-site energies", "anchors": ["tbplas/cython/sample.pyx:build_ham_dxy_fast", "tbplas/cython/sample.pyx:build_ham_dxy_safe", "tbplas/builder/sample.py:Sample.build_ham_csr", "tbplas/builder/sample.py:Sample.build_ham_dxy"]}
{"id": "C25", "title": "rescale_ham can be called any number of times", "statement": "After any sequence of rescale_ham(factor) calls the stored Hamiltonian is the original divided by the last factor, set_ham returns the original energies, and the default factor bounds the spectrum so that the rescaled Hamiltonian has norm <= 1.", "quantifier": "all samples, all call sequences", "why_tests_cant": "depends on history and on signs of on-site energies", "anchors": ["tbplas/builder/sample.py:Sample.rescale_ham", "tbplas/cython/sample.pyx:get_rescale"]}
{"id": "C26", "title": "Magnetic field: Hermitian, gauge independent flux", "statement": "set_magnetic_field multiplies each hopping by a pure phase, keeps the Hamiltonian Hermitian, is the identity for B=0, composes additively, and the phase accumulated around any closed path is proportional to B times the enclosed area, independent of the gauge option.", "quantifier": "all samples, paths, fields, and gauges 0,1,2", "why_tests_cant": "gauge invariance holds over all closed loops and is invisible on a single bond", "anchors": ["tbplas/cython/sample.pyx:set_mag_field", "tbplas/builder/sample.py:Sample.set_magnetic_field"]}
{"id": "C27", "title": "Work distribution covers every item exactly once", "statement": "split_range/split_list and MPIEnv.dist_range partition the work in order into contiguous, disjoint, balanced (sizes differ by at most one) groups; summing the ranks' partial results equals the serial result.", "quantifier": "all sizes, all numbers of processes, including more processes than items", "why_tests_cant": "all combinations of size and process count", "anchors": ["tbplas/utils.py:split_range", "tbplas/utils.py:split_list", "tbplas/parallel.py:MPIEnv.dist_range", "tbplas/parallel.py:MPIEnv.dist_bound", "tbplas/parallel.py:MPIEnv.all_reduce"]}
{"id": "C28", "title": "Dynamic polarization is independent of the number of processes", "statement": "calc_dyn_pol_regular/arbitrary return the same array for every number of MPI processes.", "quantifier": "all process counts and numbers of q-points", "why_tests_cant": "requires multi-process runs with several q-points; a reduction in the wrong loop multiplies earlier rows", "anchors": ["tbplas/diagonal/lindhard.py:Lindhard.calc_dyn_pol_regular", "tbplas/diagonal/lindhard.py:Lindhard.calc_dyn_pol_arbitrary"]}
{"id": "C29", "title": "k-paths and k-meshes contain the requested points", "statement": "gen_kpath starts at the first and ends at the last high-symmetric point, has sum(num_interp)+1 points, passes every high-symmetric point at the returned index and interpolates linearly in between; gen_kmesh lists every grid point (i/na,j/nb,k/nc) exactly once; gen_kdist is non-decreasing.", "quantifier": "all paths, interpolation counts and mesh sizes", "why_tests_cant": "off-by-one at segment ends for every number of segments", "anchors": ["tbplas/base/kpoints.py:gen_kpath", "tbplas/base/kpoints.py:gen_kmesh", "tbplas/base/kpoints.py:gen_kdist"]}
{"id": "C30", "title": "Coordinate conversions are inverse; reciprocal vectors are dual", "statement": "cart2frac and frac2cart are mutually inverse for every non-degenerate lattice and every origin; reciprocal vectors satisfy a_i.b_j = 2 pi delta_ij; lattice area/volume are the (absolute) cross/triple products; reset_lattice with sync keeps all Cartesian positions.", "quantifier": "all lattices, origins, coordinates", "why_tests_cant": "order of subtraction of origin and inversion matters only for non-zero origin and non-orthogonal lattices", "anchors": ["tbplas/base/lattice.py:cart2frac", "tbplas/base/lattice.py:frac2cart", "tbplas/base/lattice.py:gen_reciprocal_vectors", "tbplas/builder/primitive.py:PrimitiveCell.reset_lattice"]}
{"id": "C31", "title": "Generated lattice vectors have the requested lengths and angles", "statement": "gen_lattice_vectors(a,b,c,alpha,beta,gamma) returns vectors with norms a,b,c and pairwise angles alpha,beta,gamma.", "quantifier": "all admissible cell parameters", "why_tests_cant": "a continuous family", "anchors": ["tbplas/base/lattice.py:gen_lattice_vectors"]}
{"id": "C32", "title": "Rotations are isometries", "statement": "rotate_coord preserves distances between coordinates, fixes the centre, composes additively in the angle about one axis, and spiral_prim_cell only rotates and shifts the cell.", "quantifier": "all angles, axes, centres, coordinates (float input)", "why_tests_cant": "continuous family; integer input is truncated", "anchors": ["tbplas/base/lattice.py:rotate_coord", "tbplas/builder/advanced.py:spiral_prim_cell"]}
{"id": "C33", "title": "Slater-Koster integrals follow the two-centre tensor formula", "statement": "SK.eval for s, p, d labels equals the rotation-invariant two-centre expression in terms of the orbital tensors and the direction, for all label pairs, directions and parameters.", "quantifier": "all directions, all 81 label pairs, all parameters", "why_tests_cant": "sign errors in one of dozens of table entries show only at generic directions", "anchors": ["tbplas/builder/advanced.py:SK"]}
{"id": "C34", "title": "Slater-Koster integrals are Hermitian", "statement": "SK.eval(r, i, j) equals SK.eval(-r, j, i) conjugated, so adding either orientation gives the same model.", "quantifier": "all directions, label pairs and parameters", "why_tests_cant": "label-order handling is spread over nine methods", "anchors": ["tbplas/builder/advanced.py:SK.eval"]}
{"id": "C35", "title": "Spin-orbit matrices are Hermitian and the three implementations agree", "statement": "SOC, SOCTable, SOCTable2 return the same L.S matrix elements, which form a Hermitian, time-reversal symmetric matrix with the eigen-structure of L.S.", "quantifier": "all label pairs, spin pairs", "why_tests_cant": "three independent tables", "anchors": ["tbplas/builder/advanced.py:SOC", "tbplas/builder/advanced.py:SOCTable", "tbplas/builder/advanced.py:SOCTable2", "tbplas/builder/advanced.py:AtomicOrbital"]}
{"id": "C36", "title": "k+q lookup in the Lindhard solver is exact", "statement": "For every mesh and every q on the mesh the index map sends k to the mesh point equal to k+q modulo reciprocal lattice vectors, and is a permutation of the mesh; fractional/grid coordinate wrapping gives the canonical representative.", "quantifier": "all meshes, all integer q including negative and beyond the zone", "why_tests_cant": "modular arithmetic on flattened indices", "anchors": ["tbplas/cython/lindhard.pyx:build_kmesh_grid", "tbplas/cython/lindhard.pyx:build_kq_map", "tbplas/diagonal/lindhard.py:Lindhard.wrap_frac", "tbplas/diagonal/lindhard.py:Lindhard.wrap_grid"]}
{"id": "C37", "title": "Velocity matrix is the k-gradient of the Bloch Hamiltonian", "statement": "The velocity matrix used in calc_ac_cond is Hermitian and equals the derivative of the convention-1 Hamiltonian with respect to the Cartesian k component.", "quantifier": "all models, all k", "why_tests_cant": "a calculus fact over all k", "anchors": ["tbplas/cython/lindhard.pyx:prod_ac", "tbplas/cython/primitive.pyx:set_ham"]}
{"id": "C38", "title": "Sparse matrix-vector kernels compute the matrix product", "statement": "csr_mv/amv/amxpy/amxpby compute a*H*x (+ b*y) for the matrix represented by the CSR arrays.", "quantifier": "all CSR arrays and vectors", "why_tests_cant": "index base conversion (0/1-based) and row loops over all sizes", "anchors": ["tbplas/fortran/csr.F90"]}
{"id": "C39", "title": "Chebyshev propagation evaluates the Chebyshev series", "statement": "cheb_wf_timestep returns sum_k c_k (-i)^k T_k(H) psi with c_0=Bes_0, c_k=2 Bes_k (its conjugate series backwards), Fermi returns sum_k c_k T_k(H) psi, for every series length >= 3, despite the in-place buffers.", "quantifier": "all operators H, states, series lengths", "why_tests_cant": "pointer rotation must be right for every length", "anchors": ["tbplas/fortran/propagation.f90:cheb_wf_timestep", "tbplas/fortran/propagation.f90:Fermi"]}
{"id": "C40", "title": "Random-sample averages do not depend on the number of processes", "statement": "With the total number of samples a multiple of the process count, the set of seeds used by all ranks is exactly 1..total times the base seed, and the averaged correlation equals the serial one.", "quantifier": "all process counts and sample counts", "why_tests_cant": "needs multi-process runs", "anchors": ["tbplas/tbpm/solver.py:Solver._dist_sample", "tbplas/fortran/tbpm.f90", "tbplas/parallel.py:MPIEnv.all_average"]}
{"id": "C41", "title": "Haydock recursion is a tridiagonalisation", "statement": "Haydock_coef returns coefficients with H n_i = b_i n_{i-1} + a_i n_i + b_{i+1} n_{i+1}, with orthonormal n_i and real a_i for Hermitian H, as long as no b_i vanishes; the resulting local DOS is non-negative.", "quantifier": "all Hermitian operators, all depths before breakdown", "why_tests_cant": "buffer rotation over all depths", "anchors": ["tbplas/fortran/propagation.f90:Haydock_coef", "tbplas/fortran/funcs.f90:green_function"]}
{"id": "C42", "title": "calc_psi_t stores exactly the requested snapshots", "statement": "calc_psi_t(psi0, time_log) returns, for the sorted distinct requested steps, the state after exactly that many time steps; out of range requests are rejected.", "quantifier": "all step lists, including unsorted, repeated, 0 and the final step", "why_tests_cant": "pointer logic over the loop", "anchors": ["tbplas/tbpm/solver.py:Solver.calc_psi_t", "tbplas/fortran/tbpm.f90:tbpm_psi_t"]}
{"id": "C43", "title": "DOS post-processing is normalised and uses each correlation once", "statement": "Analyzer.calc_dos fills every entry of the two-sided correlation array exactly once with the conjugate-symmetric value, and the returned DOS is non-negative and integrates to 1 (2 with spin).", "quantifier": "all correlation lengths and values", "why_tests_cant": "index reflection for every length", "anchors": ["tbplas/tbpm/analysis.py:Analyzer.calc_dos"]}
{"id": "C44", "title": "Z2 crossing counts have the right parity and reordering loses nothing", "statement": "count_crossing's parity per band equals whether the band ends on the other side of the reference; reorder_phases permutes the phases at each k without losing or duplicating any.", "quantifier": "all phase arrays and reference values", "why_tests_cant": "depends on the exact arrangement of phases", "anchors": ["tbplas/diagonal/z2.py:Z2.count_crossing", "tbplas/diagonal/z2.py:Z2.reorder_phases"]}
{"id": "C45", "title": "Spin textures are real, bounded and up to date", "statement": "Spin expectation values are real, bounded by the norm of the state, consistent for both spin layouts, and always computed from the current model.", "quantifier": "all states, layouts, and histories of model edits", "why_tests_cant": "caching keyed on the k-grid only", "anchors": ["tbplas/diagonal/magnetic.py:SpinTexture"]}
{"id": "C46", "title": "Timer and progress bar bookkeeping", "statement": "The total time of a slot is the sum of all its tic/toc intervals; toc without tic raises; the progress bar reports exactly at the multiples of its scale.", "quantifier": "all call sequences", "why_tests_cant": "stateful histories", "anchors": ["tbplas/utils.py:Timer", "tbplas/utils.py:ProgressBar"]}
{"id": "C47", "title": "Wannier90 conversion keeps the Bloch sum", "statement": "wan2pc turns the list of matrix elements (and Wigner-Seitz shifts) into a cell whose hopping between any two orbitals is the sum of all contributions mapped to that cell index.", "quantifier": "all hopping files and shift tables", "why_tests_cant": "several source terms can map onto one target key", "anchors": ["tbplas/adapter/wannier90.py:apply_wsvec", "tbplas/adapter/wannier90.py:wan2pc"]}
{"id": "C48", "title": "Neighbour search is complete and sorted", "statement": "find_neighbors returns exactly the orbital pairs within the cutoff among the searched cells, sorted by distance, each once.", "quantifier": "all cells, cutoffs, search ranges", "why_tests_cant": "completeness over all pairs", "anchors": ["tbplas/builder/advanced.py:find_neighbors"]}
{"id": "C49", "title": "Trimming removes dangling orbitals", "statement": "trim removes exactly the orbitals with fewer than two hopping ends in the current model, and keeps all hoppings among the rest; modifiers keep referring to the same orbitals.", "quantifier": "all models", "why_tests_cant": "depends on graph shape; single pass versus fixpoint", "anchors": ["tbplas/builder/primitive.py:PrimitiveCell.trim", "tbplas/builder/super.py:SuperCell.trim", "tbplas/cython/super.pyx:get_orb_id_trim"]}
{"id": "C50", "title": "Open boundaries remove exactly the crossing hoppings", "statement": "apply_pbc removes exactly the hoppings with a non-zero cell index along an open direction and changes nothing else.", "quantifier": "all cells and boundary settings", "why_tests_cant": "removal while iterating; conjugate keys", "anchors": ["tbplas/builder/primitive.py:PrimitiveCell.apply_pbc"]}
{"id": "C51", "title": "Fermi-Dirac occupation and local DOS formulas are exact", "statement": "Both branches of the occupation function equal 1/(1+exp(beta(E-mu))), lie in (0,1), are decreasing and sum to one at energies symmetric about mu.", "quantifier": "all energies, temperatures, chemical potentials", "why_tests_cant": "continuous", "anchors": ["tbplas/fortran/funcs.f90:Fermi_dist"]}
{"id": "C52", "title": "Configuration checks catch undefined parameters", "statement": "check_params raises for every parameter not defined by Config, whatever group it is in and however the configuration was loaded.", "quantifier": "all parameter dictionaries", "why_tests_cant": "depends on the history (read_config)", "anchors": ["tbplas/tbpm/config.py:Config", "tbplas/tbpm/config.py:read_config"]}
{"id": "C53", "title": "Inter-supercell hoppings keep their displacement and uniqueness", "statement": "SCInterHopping.get_hop returns one row per added term with dr the Cartesian displacement including the cell index, rejects an empty container and, on request, duplicate orbital pairs.", "quantifier": "all containers", "why_tests_cant": "all sequences of additions", "anchors": ["tbplas/builder/super.py:SCInterHopping.get_hop", "tbplas/cython/super.pyx:build_inter_dr"]}
{"id": "C54", "title": "Radix-2 FFT computes the discrete Fourier transform", "statement": "The in-place FFT returns the DFT for every power-of-two length, and is inverted by the opposite sign up to the factor n.", "quantifier": "all power-of-two lengths and inputs", "why_tests_cant": "butterfly indexing over all stages", "anchors": ["tbplas/fortran/fft.F90"]}
{"id": "C55", "title": "Kernel polynomial moments follow the Chebyshev recursion", "statement": "The moments accumulated for DC/Hall conductivity are <psi|v T_m(H) v T_n(H)|psi>; the moment weight matrix is Hermitian, so the trace is real.", "quantifier": "all operators and orders", "why_tests_cant": "in-place recursion", "anchors": ["tbplas/fortran/tbpm.f90:tbpm_kbdc", "tbplas/fortran/kpm.f90"]}
{"id": "C56", "title": "Saved arrays of a sample load back unchanged", "statement": "save_array followed by load_array into a sample of the same components restores energies, positions, hoppings and scaling factor, so that all Hamiltonians are those of the saved sample.", "quantifier": "all samples, states reached by calls, and directories", "why_tests_cant": "depends on the history of the sample and of the directory", "anchors": ["tbplas/builder/sample.py:Sample.save_array", "tbplas/builder/sample.py:Sample.load_array"]}
{"id": "C57", "title": "Bands of a periodic supercell are the folded bands of its primitive cell", "statement": "A Bloch eigenvector of the primitive cell at k, continued with its phases over a periodic supercell, is an eigenvector of the Hamiltonian of the sample at the folded k-point with the same energy.", "quantifier": "all cells, supercell dimensions, k-points and eigenvectors", "why_tests_cant": "spectra of unbounded families of matrices", "anchors": ["tbplas/builder/super.py:SuperCell", "tbplas/builder/sample.py:Sample.set_ham_dense", "tbplas/builder/primitive.py:PrimitiveCell.set_ham_dense"]}
{"id": "C58", "title": "Setting the k-point of a sample gives the Bloch Hamiltonian of that k-point", "statement": "After set_k_point(k), the Hamiltonian matrices of the sample are those of k, whatever k-point was set before.", "quantifier": "all samples, k-points, and sequences of calls", "why_tests_cant": "state: the hoppings are modified in place", "anchors": ["tbplas/builder/sample.py:Sample.set_k_point", "tbplas/cython/sample.pyx:build_hop_k"]}
{"id": "C59", "title": "AC conductivity is the Kubo-Greenwood formula", "statement": "For every component, calc_ac_cond returns on every process i g_s/(cell size * N_k) times the sum over k-points and band pairs (further apart than 1e-7 eV) of (f_m-f_n)/(E_m-E_n) <n|dH/dk1|m><m|dH/dk2|n>/(E_m-E_n-omega-i delta), whatever the number of processes (up to the number of k-points); any other component raises ValueError.", "quantifier": "all models, meshes, frequencies, components and process counts", "why_tests_cant": "the velocities are derivatives and the sum ranges over all k-points and bands", "anchors": ["tbplas/diagonal/lindhard.py:Lindhard.calc_ac_cond", "tbplas/cython/lindhard.pyx:prod_ac", "tbplas/cython/lindhard.pyx:ac_cond"]}
{"id": "C60", "title": "Dielectric function from polarization and conductivity", "statement": "calc_epsilon returns 1 - V(q) chi(q, omega) for every q-point and frequency, with the two- or three-dimensional Coulomb potential; calc_epsilon_q0 returns 1 + 4 pi i sigma/(eps omega) and raises ValueError for two-dimensional models.", "quantifier": "all q-points (lists or arrays, including q = 0), frequencies, dimensions and dielectric constants", "why_tests_cant": "formula over all q and omega, and which containers are accepted", "anchors": ["tbplas/diagonal/lindhard.py:Lindhard.calc_epsilon", "tbplas/diagonal/lindhard.py:Lindhard.calc_epsilon_q0", "tbplas/diagonal/lindhard.py:Lindhard._get_vq"]}
{"id": "C61", "title": "Generated random seeds are distinct and complete", "statement": "gen_seeds(n) returns pairwise different signed integers, each in the range of its number of bytes, and contains every number drawn; callers can rely on at most n of them.", "quantifier": "all draws of byte counts, byte orders and bytes", "why_tests_cant": "the draws come from the operating system", "anchors": ["tbplas/utils.py:gen_seeds"]}
{"id": "C62", "title": "Wannier-centre phases are independent of the choice of eigenvectors and of the process count", "statement": "calc_phases returns, for every k-point of the line, the phases of the eigenvalues of the Wilson loop in ascending order; mixing the occupied eigenvectors at any k-point by a unitary matrix or changing the number of processes does not change them.", "quantifier": "all models, occupied subspaces, k-lines, unitary mixings and process counts", "why_tests_cant": "the eigenvectors returned by the solver are arbitrary within degenerate spaces", "anchors": ["tbplas/diagonal/z2.py:Z2.calc_phases"]}
{"id": "C63", "title": "The Bessel expansion is cut at the first negligible pair or refused", "statement": "The Chebyshev expansion of a time step keeps every Bessel value up to the first order at which two successive values are within Bessel_precision, and the calculation is refused (ValueError) exactly if no such order exists below Bessel_max.", "quantifier": "all time steps, precisions and limits", "why_tests_cant": "isolated small values of oscillating functions", "anchors": ["tbplas/tbpm/solver.py:Solver._get_bessel_series"]}
{"id": "C64", "title": "Series of the Fermi operator are occupations", "statement": "The Chebyshev coefficients computed for the Fermi operator and for its complement give, at every energy of the rescaled spectrum, numbers between 0 and 1 that add up to 1 (without cutting); cutting removes exactly the terms after the first pair of values below the precision; memory that was never set has no influence.", "quantifier": "all temperatures, chemical potentials, energies, transform lengths 2^p and precisions", "why_tests_cant": "positivity of a damped series over a continuum of energies and all orders", "anchors": ["tbplas/fortran/funcs.f90:get_Fermi_cheb_coef", "tbplas/fortran/kpm.f90:jackson_kernel", "tbplas/fortran/fft.F90:fft1d_inplace"]}
{"id": "C65", "title": "Response functions do not depend on how the sample is divided into cells", "statement": "Conductivities and polarization computed for a sample described with a primitive cell k times as large (k times the orbitals, size and extension factor) equal those of the original description.", "quantifier": "all samples, correlation functions and factors", "why_tests_cant": "two descriptions of one physical system must be compared for all inputs", "anchors": ["tbplas/tbpm/analysis.py:Analyzer.calc_ac_cond", "tbplas/tbpm/analysis.py:Analyzer.calc_dyn_pol", "tbplas/tbpm/analysis.py:Analyzer.calc_dc_cond", "tbplas/tbpm/analysis.py:Analyzer.calc_hall_cond", "tbplas/builder/advanced.py:extend_prim_cell", "tbplas/builder/advanced.py:merge_prim_cell"]}
{"id": "C66", "title": "Atomic orbital operators obey the angular momentum algebra", "statement": "For any combination of |l,m> states built through the interface, l_plus, l_minus and l_z satisfy the commutation relations of angular momentum and l^2 = l(l+1); product is the sum over common states; the matrix elements of l+ and l- are adjoint and lz is Hermitian.", "quantifier": "all l, m, coefficients and sequences of operations", "why_tests_cant": "unbounded l and arbitrary combinations; boundary states m = l, -l must vanish", "anchors": ["tbplas/builder/advanced.py:AtomicOrbital"]}
{"id": "C67", "title": "A dictionary of hopping matrices adds exactly the hoppings it holds", "statement": "Any sequence of assignments to a HopDict (whole matrices or single elements) leaves in it exactly the values assigned last, refusing bad cell indices, shapes and on-site diagonal terms; add_hopping_dict then gives the primitive cell every non-zero element with its conjugate and leaves all other hoppings alone.", "quantifier": "all numbers of orbitals, sequences of assignments, cells and histories of the primitive cell", "why_tests_cant": "unbounded sequences of assignments, arbitrary matrices, both orientations of a bond", "anchors": ["tbplas/builder/base.py:HopDict", "tbplas/builder/primitive.py:PrimitiveCell.add_hopping_dict"]}
{"id": "C68", "title": "The graphene cells shipped with the library describe one honeycomb crystal", "statement": "make_graphene_diamond gives two orbitals per cell with the hopping exactly between nearest neighbours, three for each orbital at distance 0.246/sqrt(3) nm; make_graphene_rect, built from scratch or by reshaping, is the same crystal: a one-to-one correspondence of orbitals over all cells keeps positions and matrix elements.", "quantifier": "all thicknesses and hoppings", "why_tests_cant": "the statement is about every pair of orbitals of an infinite crystal", "anchors": ["tbplas/materials/graphene.py:make_graphene_diamond", "tbplas/materials/graphene.py:make_graphene_rect", "tbplas/builder/advanced.py:reshape_prim_cell"]}
{"id": "C69", "title": "The Kane-Mele cell has the Hamiltonian and the symmetries of the model", "statement": "make_graphene_soc gives, for every pair of orbitals of the crystal, the amplitude of the Kane-Mele model with Rashba coupling and staggered potential computed from the positions (spin-independent hopping and Rashba term between nearest neighbours, spin-dependent imaginary hopping with the sign of the turn between second neighbours, nothing else); the Hamiltonian is Hermitian and invariant under time reversal, the threefold rotation and the mirror, acting on space and spin.", "quantifier": "both phases, all orbitals, cells and spins", "why_tests_cant": "symmetries relate infinitely many amplitudes; a wrong sign or cell index still gives a plausible band structure", "anchors": ["tbplas/materials/graphene.py:make_graphene_soc", "tbplas/builder/primitive.py:PrimitiveCell.add_hopping_dict"]}
{"id": "C70", "title": "Black phosphorus has the space group and the bonds of the puckered layer", "statement": "make_black_phosphorus puts its four atoms at the documented Cartesian positions; its 44 hopping calls give a Hamiltonian invariant under the inversion in the middle of the interlayer bond, the reflection of x and the glide between the two sublayers; each atom has exactly two bonds with the strongest in-plane amplitude, of length 0.22156 nm, and exactly one strongest bond to the other sublayer.", "quantifier": "every non-zero length of the c axis, all orbitals and cells", "why_tests_cant": "a hopping written into the wrong cell breaks a symmetry of infinitely many amplitudes and still gives a gapped band structure", "anchors": ["tbplas/materials/phosphorene.py:make_black_phosphorus", "tbplas/base/lattice.py:cart2frac"]}
{"id": "C71", "title": "Antimonene has the symmetries of the buckled honeycomb, with and without spin-orbit coupling", "statement": "make_antimonene puts its orbitals on the two documented sites; the Hamiltonian built from its 186 item assignments, doubled for spin and completed by the spin-orbit matrix, is Hermitian and invariant under time reversal, inversion and the mirror of y, acting on orbitals and spins; without spin-orbit coupling also under the rotation by a third of a turn about an atom, while with it the written matrix breaks that rotation.", "quantifier": "with and without coupling, every strength of the coupling, every non-zero length of the c axis, all orbitals and cells", "why_tests_cant": "a table of 186 literals with one wrong index or sign passes any spot check, and symmetries quantify over infinitely many amplitudes and a real parameter", "anchors": ["tbplas/materials/antimonene.py:make_antimonene", "tbplas/builder/base.py:HopDict"]}
{"id": "C72", "title": "The dichalcogenide cells have the symmetries of the layer, acting on orbitals like on atomic ones", "statement": "make_tmdc for each documented material puts the metal and the two chalcogens at the documented places and labels the orbitals; the Hamiltonian assembled from 44 parameters, derived hopping matrices and the change to unsymmetrical orbitals is real, Hermitian and invariant under the rotation by a third of a turn, the mirror of x and the reflection in the plane of the metal, where each motion turns an orbital into the combination of the labelled p and d orbitals which has the same values in space. Other material names are refused with NotImplementedError.", "quantifier": "all material names, all pairs of orbitals and cells", "why_tests_cant": "the derived matrices are filled by nested loops with index lists; a wrong sign or index changes single entries of 11 x 11 matrices and symmetries quantify over all amplitudes", "anchors": ["tbplas/materials/xs2.py:make_tmdc", "tbplas/materials/xs2.py:gen_hop_dict", "tbplas/materials/xs2.py:gen_lattice", "tbplas/materials/xs2.py:gen_orb_labels"]}
{"id": "C73", "title": "Symmetries of a cell act on its band structure", "statement": "A symmetry of the crystal described by a primitive cell maps the eigenstates of the Hamiltonian at a wave vector onto the eigenstates at the turned wave vector, keeps overlaps and energies and is onto. An antiunitary symmetry of square -1 which keeps the wave vector pairs every level with an orthogonal state of the same energy: all levels of antimonene with spin-orbit coupling at every wave vector, all levels of the Kane-Mele cells at the time-reversal invariant wave vectors. The dichalcogenide cells have the same levels at k, at its images under the threefold rotation and the two mirrors, and at -k. Symmetries compose.", "quantifier": "all cells reached by any sequence of edits, all symmetries, all wave vectors and eigenstates, all coupling strengths", "why_tests_cant": "degeneracies are equalities of irrational eigenvalues over a continuum of wave vectors; a band plot shows them only up to numerical noise", "anchors": ["tbplas/cython/primitive.pyx:set_ham", "tbplas/builder/primitive.py:PrimitiveCell.set_ham_dense", "tbplas/materials/antimonene.py:make_antimonene", "tbplas/materials/graphene.py:make_graphene_soc", "tbplas/materials/xs2.py:make_tmdc"]}
{"id": "C74", "title": "Cells built from neighbours and Slater-Koster integrals inherit the symmetries of their atoms", "statement": "Adding, for every term of find_neighbors, the Slater-Koster integral of the two labelled orbitals gives the crystal of two-centre integrals: each pair of places nearer than the cutoff gets the integral of its own direction and distance in both directions, other pairs nothing. Every motion of space that takes atoms to atoms of equal energy, with the orbitals turned like atomic s, p and d orbitals, is a symmetry of the Hamiltonian; real energies and parameters give time reversal. make_graphene_sp has eight orbitals on the honeycomb lattice, the documented parameters at the first and second neighbours, and the inversion, threefold rotation, both mirrors and time reversal of the sheet.", "quantifier": "all lattices, sets of labelled orbitals, search ranges, cutoffs, parameter functions of the distance and motions; every period c of the sheet; every correct k-d tree", "why_tests_cant": "symmetries relate infinitely many amplitudes, and the neighbour list, its conjugate reduction and 81 formulas must agree", "anchors": ["tbplas/materials/graphene.py:make_graphene_sp", "tbplas/builder/advanced.py:find_neighbors", "tbplas/builder/advanced.py:SK", "tbplas/builder/primitive.py:PrimitiveCell.add_hopping"]}
{"id": "C75", "title": "Doubling a cell for spin and adding L.S keeps its symmetries and gives Kramers pairs", "statement": "Merging a cell with itself, naming the copies up and down, and adding lambda L.S between the orbitals of each atom gives two copies of every orbital at its place, the amplitudes of the cell between equal spins, and the coupling of each pair of spin orbitals of one atom, hermitian and nothing else. Every symmetry of the cell without spin remains one when the spins turn along with the orbitals, and time reversal is one if the hoppings are real, so that all energies at half-integral wave vectors are paired. make_mos2_soc builds the 22 orbitals of the MoS2 monolayer from the documented places, levels, Slater-Koster parameters and couplings, with the reflection in the molybdenum plane (exchanging the sulphur layers), time reversal and Kramers pairs.", "quantifier": "all cells with labels atom:kind and any coupling strengths (zero or at least 2e-15); all symmetries; all half-integral wave vectors; every neighbour search, inverse lattice routine and lattice comparison that meet their contracts", "why_tests_cant": "A test compares a handful of band energies with stored numbers, in one material; it says nothing of other cells, couplings or of which terms produced the energies, and a sign error in one of the spin-orbit terms keeps most levels.", "anchors": ["tbplas/materials/xs2.py:make_mos2_soc", "tbplas/builder/advanced.py:merge_prim_cell", "tbplas/builder/advanced.py:SOC", "tbplas/builder/primitive.py:PrimitiveCell.set_orbital"]}
{"id": "C76", "title": "Non-orthogonal models: overlaps and generalised energies", "statement": "An Overlap container has the orbitals of its model, accepts exactly the legal indices and keeps the overlap set last in both orientations; its matrix is Hermitian at every k-point and the lattice sum of the overlaps set, dense and sparse alike. The solver returns energies and S-orthonormal states of H v = e S v; these energies are real, states of different energies are S-orthogonal, and the energies are the same in both conventions and at k and k + G.", "quantifier": "all models, lists of calls on the container, k-points, conventions, reciprocal lattice vectors and matrix sizes", "why_tests_cant": "relations between two matrices over a continuum of k-points and arbitrary call sequences", "anchors": ["tbplas/builder/overlap.py:Overlap", "tbplas/diagonal/base.py:DiagSolver._diag_ham_dense"]}
{"id": "C77", "title": "A solver can be used again after the model has changed", "statement": "Every call of a diagonalization solver gives what a new solver would give for the present model and overlap.", "quantifier": "all sequences of calls and edits between them", "why_tests_cant": "the matrices kept between calls are hidden state; histories are unbounded", "anchors": ["tbplas/diagonal/base.py:DiagSolver._diag_ham_dense", "tbplas/diagonal/base.py:DiagSolver.calc_bands"]}
{"id": "C78", "title": "Atomic wave functions drawn in real space are the normalised bound states of the atom", "statement": "For nuclear charge z and quantum numbers n, l <= 3, m, the function written to the grid solves the Schroedinger equation of the nucleus with energy -z^2/(2 n^2) everywhere off the nucleus, and functions of one nucleus with different or equal quantum numbers are orthonormal over all space. Every grid point farther than 1e-7 bohr from the nucleus holds this function of its displacement, and nothing outside the grid is written. Unsupported l or m give zero. At the nucleus itself zero is written, also for s states, which have their maximum there.", "quantifier": "all charges, shells n (unbounded), l <= 3, m, grids, origins, resolutions and points of space", "why_tests_cant": "an eigenvalue equation at every point of space and integrals over it for unboundedly many shells; a wrong coefficient of one polynomial still looks like an orbital", "anchors": ["tbplas/cython/atom.pyx:set_cube", "tbplas/cython/atom.pyx:_radial", "tbplas/cython/atom.pyx:_ylm", "tbplas/visual.py:Visualizer.plot_wfc3d"]}
{"id": "C79", "title": "DC correlation functions are sample means of filtered currents at exactly the requested energies", "statement": "calc_corr_dc_cond leaves on every process the mean over all samples of <x|x(t)> for t = 1..n and of <(J x)(t)|J q>/|<x|q>| for t = 0..n-1, J the current in x and y and q the quasi-eigenstate of each energy of the grid within energy_limits, in ascending order; further rows of the array are zero. The norm of q has no influence. A quasi-eigenstate is the random state with every eigencomponent multiplied by a real response to its distance in energy, largest (n) at the energy asked for. The only failures are the norm check and a vanishing filtered state.", "quantifier": "all sparse Hamiltonians, samples, process counts, seeds, energy limits, time steps and propagator coefficients", "why_tests_cant": "random states, four nested loops and a reduction over processes; a wrong sign of one phase or an off-by-one in time still gives smooth curves", "anchors": ["tbplas/fortran/tbpm.f90:tbpm_dccond", "tbplas/tbpm/solver.py:Solver.calc_corr_dc_cond"]}
{"id": "C80", "title": "DC conductivity and diffusion coefficient follow from the correlation functions and obey the Einstein relation", "statement": "calc_dc_cond and calc_diff_coeff use the same energies as the solver. The conductivity at energy E is norb/size times the density of states of calc_dos times the sum over time of the windowed real part of exp(-iEt) C(E,t) dt. The diffusion coefficient starts at zero and grows by one trapezium per time step; the conductivity is norb/size * DOS * D at the last time, up to half weights of both ends. correct_spin accounts for spin by a factor 2: false, the values grow by a factor 4.", "quantifier": "all correlation functions, windows, energy ranges and limits, numbers of time steps, orbital numbers and sizes", "why_tests_cant": "relations between two analyses over all inputs; the factor of spin is plausible in every single run", "anchors": ["tbplas/tbpm/analysis.py:Analyzer.calc_dc_cond", "tbplas/tbpm/analysis.py:Analyzer.calc_diff_coeff"]}
{"id": "C81", "title": "The Hall conductivity is the Kubo-Bastin formula for the given moments", "statement": "calc_hall_cond returns for every chemical potential the prefactor 16 norb/(pi range^2 size), times 2 pi for the unit 'h' and times 2 with correct_spin, times a sum over the energies cos(k pi/ne), 0 < k < ne: width on the energy axis, Fermi occupation at rescale*energy, and the real part of sum mu_ij [delta_i G_j' + conj(G_i') delta_j], where delta_n and G_n are the Chebyshev terms of delta(E-H) and of the Green's function and G' is the derivative with respect to energy. For the moments of the full trace this is the sum over pairs of eigenstates of current matrix elements times the expansions at both levels. Any other unit raises ValueError.", "quantifier": "all arrays of moments, numbers of kernel polynomials, numbers of energies, temperatures, chemical potentials, Hamiltonians and currents", "why_tests_cant": "the weights are a derivative in closed form, inlined in Fortran; an error in one of them changes smooth curves only", "anchors": ["tbplas/tbpm/analysis.py:Analyzer.calc_hall_cond", "tbplas/fortran/analysis.f90:cond_from_trace", "tbplas/fortran/kpm.f90:get_gamma_mn"]}
{"id": "C82", "title": "The optical conductivity has the discrete Hilbert transform of its real part as imaginary part", "statement": "calc_ac_cond returns frequencies i range/n and for each of four directions the windowed sine sum of the imaginary part of the correlation function as real part, and as imaginary part (1/N) sum over m of sigma_m (1-(-1)^(j-m)) cot(pi (j-m)/N), N = 2n, of the real part continued as an even function to negative frequencies (zero at the lowest one). Both parts vanish at zero frequency. correct_spin doubles both.", "quantifier": "all correlation functions, windows, temperatures, energy ranges and numbers of time steps", "why_tests_cant": "the imaginary part comes out of a library transform of an array filled from the middle; a shift by one index or a sign is invisible in single spectra", "anchors": ["tbplas/tbpm/analysis.py:Analyzer.calc_ac_cond"]}
{"id": "C83", "title": "Dynamic polarization and dielectric function from correlation functions", "statement": "calc_dyn_pol returns 2 norb/(size extended) times the windowed Fourier sum of the correlation function with time step pi/range at frequencies i range/n; the static value is real. calc_epsilon returns 1 - v(q) dp with v = 2 pi/q or 4 pi/q^2 over the dielectric constants, and 1 at q = 0 whatever the polarization. calc_epsilon_q0 returns 1 + 4 pi i sigma/(back eps0 omega) in three dimensions, undefined for the first frequency, which is always zero, and raises ValueError in two.", "quantifier": "all correlation functions, windows, q-points, constants and numbers of time steps", "why_tests_cant": "claims over all arrays, and about the limits q = 0 and omega = 0", "anchors": ["tbplas/tbpm/analysis.py:Analyzer.calc_dyn_pol", "tbplas/tbpm/analysis.py:Analyzer.calc_epsilon", "tbplas/tbpm/analysis.py:Analyzer.calc_epsilon_q0"]}
{"id": "C84", "title": "Correlation functions of the full trace are Kubo sums over pairs of levels", "statement": "Summed over a complete set of initial states, the correlation functions of calc_corr_ac_cond and calc_corr_dyn_pol are sums over pairs of eigenstates (a, b) of f_a (1-f)_b exp(i(E_a-E_b)t) <a|B|b><b|A|a>. Hence the real part of the optical conductivity of calc_ac_cond along an axis is (1-exp(-beta omega))/(size omega) times the sum of the non-negative weights f_a (1-f)_b |J_ab|^2 and a spectral sum in E_b-E_a and omega; with the identity f_a(1-f_b)(1-exp(-beta(E_b-E_a))) = f_a-f_b this is the Kubo formula.", "quantifier": "all Hamiltonians with their eigenvectors, currents, densities, times, windows and temperatures", "why_tests_cant": "operator identity; tests see noisy averages for one Hamiltonian", "anchors": ["tbplas/fortran/tbpm.f90:tbpm_accond", "tbplas/fortran/tbpm.f90:tbpm_dyn_pol", "tbplas/tbpm/analysis.py:Analyzer.calc_ac_cond"]}
{"id": "C85", "title": "The formulas printed for the Hamiltonian evaluate to the Hamiltonian", "statement": "print_hk of a cell prints assignments to ham[i, j], each element at most once. Executed in order by Python on a zero matrix, with ka, kb, kc the components of k and exp_i(x) = exp(i 2 pi x), they give the matrix set_ham_dense computes for the same k-point and convention, exactly if no displacement between hopping orbitals has a component that differs from 0, 1 or -1 by at most 1e-5 without being equal to it, hence always in convention 2, and otherwise within 2e-5 pi |k| times the sum of the moduli of the hopping energies. Cells without orbitals or hoppings and other conventions are refused.", "quantifier": "all cells, after any sequence of modifications and synchronisations, all k-points, both conventions", "why_tests_cant": "the printed text is a program; a sign or a conjugate misplaced in it shows only when it is run for general k and compared with the matrix", "anchors": ["tbplas/builder/primitive.py:PrimitiveCell.print_hk", "tbplas/builder/primitive.py:f_dot_s", "tbplas/builder/primitive.py:PrimitiveCell.dr"]}
{"id": "C86", "title": "Pictures of cells and supercells show the model", "statement": "plot of a primitive cell draws, for any of the six views, the projections of all orbitals of a set of cells, each cell once; an arrow (or line) for every hopping with modulus of at least the cutoff, from the orbital of cell 0 to the orbital it reaches, in both directions with with_conj and in exactly one of them without; the two lattice vectors of the plane; and the four sides of every cell shown. With conjugates every arrow joins two orbitals that are drawn. For a supercell whose hoppings were not edited each arrow runs from one of its orbitals along a hopping of the crystal. Reversing the view mirrors the picture, other views raise ValueError.", "quantifier": "all cells after any modifications, all supercells, lattices, origins, cutoffs, views and options", "why_tests_cant": "pictures are looked at, not asserted; with a wrong sign of a displacement they still look like a crystal", "anchors": ["tbplas/builder/primitive.py:PrimitiveCell.plot", "tbplas/builder/super.py:SuperCell.plot", "tbplas/builder/visual.py:ModelViewer"]}
{"id": "C87", "title": "Parameter fitting minimises the weighted difference of bands", "statement": "A ParamFit with reference bands and weights compares bands k-point by k-point: the errors handed to the optimiser are the differences of fitted and reference bands times the modulus of the weight divided by the sum of the moduli. The sum of their squares vanishes exactly if all bands of non-zero weight agree at all k-points. Only ratios of moduli of weights matter; without weights all bands count equally, which differs from equal weights by the factor num_bands in all errors and does not move minima. Weights of wrong length raise ValueError. fit returns the parameters of a local minimum of the weighted error when the optimiser reports success (status 1 to 4) and raises RuntimeError otherwise; if the reference can be met nearby, it is met.", "quantifier": "all numbers of k-points and bands, reference and fitted bands, weights, parameter spaces and optimisers", "why_tests_cant": "a fit that converges in one example says little about which k-point or band each weight multiplies, or about other weights", "anchors": ["tbplas/builder/advanced.py:ParamFit"]}
{"id": "C88", "title": "Layers of twisted bilayers are commensurate and complete", "statement": "For the pair (n, m) with |n| <= |m|, not both zero, the lattice vectors of the bilayer have the whole coordinates (n, m, 0), (-m, n+m, 0), (0, 0, 1) in the basis of the fixed layer and (m, n, 0), (-n, n+m, 0), (0, 0, 1) in the basis of the layer turned by the twist angle, so each layer contains n^2 + n m + m^2 of its cells; the series of index i is the pair (i, i+1). spiral_prim_cell turns a layer about the origin without changing its own coordinates besides the lift. Both layers returned by make_hetero_layer are the same infinite crystals as the cells they were made of; for graphene with default arguments this holds for every index from 1 to 54. Aligning the layers brings the first lattice vector to the x axis, with length a sqrt(n^2 + n m + m^2).", "quantifier": "all pairs of integers, lattice constants, cells with orbitals near the origin, heights and hopping energies", "why_tests_cant": "tests build a few small angles; the numbers are real and the claim concerns every index and every orbital of cells with thousands of orbitals", "anchors": ["tbplas/builder/advanced.py:make_hetero_layer", "tbplas/builder/advanced.py:spiral_prim_cell", "tbplas/builder/advanced.py:reshape_prim_cell", "examples/advanced/tbg.py:make_layers"]}
{"id": "C89", "title": "Energy grid and broadening of calc_dos keep the number of states", "statement": "calc_dos(k_points, e_min, e_max, e_step, sigma, basis, g_s) with e_step > 0 and e_min <= e_max returns energies that start at e_min, end at e_max as soon as the range holds one step, and are equally spaced, with a spacing between e_step and less than twice e_step; bounds left out are the smallest and the largest band energy. For sigma > 0 the returned density is the slope of a function of energy that starts from 0 far below and ends at g_s far above (g_s times the mean weight when the density is projected on orbitals): broadening with either basis neither creates nor loses states. The density is never negative. Both basis functions are positive, symmetric, and fall strictly with distance from the level; they reach half of the maximum at sigma for Lorentzian and sigma sqrt(2 ln 2) for Gaussian. Any other basis name raises ValueError.", "quantifier": "all energy ranges, steps, widths, band energies, orbital selections, numbers of k-points and processes", "why_tests_cant": "the number of states is an integral over all energies of a sum over all levels; a test sees finitely many grid points of a few models", "anchors": ["tbplas/diagonal/base.py:calc_dos", "tbplas/diagonal/base.py:gaussian", "tbplas/diagonal/base.py:lorentzian"]}
{"id": "C90", "title": "The cube file written by plot_wfc3d holds the wave function", "statement": "Visualizer.plot_wfc3d(wfc, quantum_numbers, ..., rn_max, convention, k_point, cube_origin, cube_size, cube_res, kind) writes a text that a reader of the Gaussian cube format splits in exactly one way into comment, atoms, origin, three axes and values. The number of grid points along each axis is the number of whole steps cube_res in cube_size, and the value stored for point (i, j, k) is the real part, the imaginary part or the squared modulus of the wave function at origin + (i, j, k) cube_res: the sum over cells within rn_max and over orbitals of coefficient, Bloch phase of the chosen convention and hydrogen-like orbital centred at the image of that orbital, divided by the square root of the number of cells. The atoms listed are the images of the orbitals, each place once. A state of convention 1 and the same state in convention 2 give the same file; so do equivalent k-points. A common phase of the coefficients does not alter the squared modulus.", "quantifier": "all models, states, quantum numbers, cells, k-points, grids and resolutions", "why_tests_cant": "the value of each grid point is a sum over cells and orbitals and its place in the text depends on line breaks every six values; tests compare pictures of a few molecules", "anchors": ["tbplas/visual.py:plot_wfc3d"]}
{"id": "C91", "title": "Pictures of fields, states, bands and phases show the data", "statement": "Visualizer.plot_scalar(x, y, z, num_grid=(n, n)) draws an image over the smallest box that holds the data points, in which every pixel shows the interpolated field at a point inside this pixel. plot_wfc(model, wfc, scatter=True) draws one point for each orbital, at its Cartesian place seen along z, coloured by the value of wfc on that orbital, and refuses a wfc of another length. plot_vector draws arrows from (x, y) along (u, v) coloured by their length. The model under the data is drawn with one line for each pair of conjugate hopping terms of a PrimitiveCell, and one for each hopping term of a Sample after any sequence of calls, from the orbital of the bra along the displacement. plot_bands draws one curve for each band through (k_len[k], bands[k, b]), with vertical lines and labels at k_idx. plot_phases draws every phase over its k_b, and in polar mode phases that differ by whole turns fall on one point. Sample.plot draws the pictures of all supercells and inter-hoppings and nothing else.", "quantifier": "all data, fields, models, histories of the sample, numbers of points, bands and k-points", "why_tests_cant": "a picture is judged by eye for a few symmetric inputs; a transposed or shifted image of a symmetric field looks right", "anchors": ["tbplas/visual.py:plot_scalar", "tbplas/visual.py:plot_vector", "tbplas/visual.py:plot_wfc", "tbplas/visual.py:plot_bands", "tbplas/visual.py:plot_phases", "tbplas/visual.py:_plot_model", "tbplas/builder/sample.py:plot"]}
{"id": "C92", "title": "Files of Wannier90 are read as they are written", "statement": "wan2pc(seed_name) reads the lattice vectors between the lines 'begin unit_cell_cart' and 'end unit_cell_cart' of seed_name.win, in Angstrom or multiplied by the Bohr radius as the optional unit line says; the centres in seed_name_centres.xyz from the lines marked X, in their order; the matrix elements of seed_name_hr.dat after the n degeneracies written with 15 in a line, with orbital numbers lowered by one; and the shifts of seed_name_wsvec.dat block by block, for any amount of blanks between the words. Integers and decimal numbers with optional sign, point and exponent are read with the value they spell, and no other text is read as a number. The primitive cell is the one C47 describes, with orbitals whose Cartesian places are the centres.", "quantifier": "all files of this layout, all spellings of numbers, all numbers of orbitals, cells and shifts", "why_tests_cant": "a test reads a few files of one version of Wannier90; the layout, the number of header lines and the spelling of numbers vary without bound", "anchors": ["tbplas/adapter/wannier90.py:read_lat_vec", "tbplas/adapter/wannier90.py:read_orb_pos", "tbplas/adapter/wannier90.py:read_hop", "tbplas/adapter/wannier90.py:read_wsvec", "tbplas/adapter/wannier90.py:wan2pc"]}
{"id": "C93", "title": "Random initial states are normalised and belong to the seed", "statement": "Every random state of a TBPM calculation has one amplitude per orbital and norm 1; the squared moduli before normalisation are the quantiles of the exponential distribution at the numbers drawn, and the phases are 2 pi times the numbers drawn next. The state is a function of the seed (modulo 2^32) and of the generator of the run-time library only. With the default seed 1337 the samples 1 to 10000 start from seed arrays that differ pairwise, whatever length of at least 2 the run-time library asks for.", "quantifier": "all numbers of orbitals, all generators with values in [0,1), all lengths of the seed array, all seeds; all pairs of samples up to 10000", "why_tests_cant": "averages of random samples only differ in noise: a test sees neither a distribution that is off nor samples that repeat", "anchors": ["tbplas/fortran/random.f90:random_state", "tbplas/fortran/random.f90:init_seed", "tbplas/fortran/tbpm.f90:tbpm_dos", "tbplas/tbpm/config.py:TBPMConfig.__init__"]}
{"id": "C94", "title": "Files of a solver hold what its calculations returned", "statement": "A Solver writes each of its files inside its output directory; directory, prefix and purpose determine the file and are determined by it, however the directory is spelled. When a calculation returns, the master has saved exactly the arrays that the calculation documents as saved, under the names output[...] plus '.npy'. After any sequence of calculations, failing or not, with any changes of the configuration in between, every such file holds the array that was returned under its name last. A calculation that fails changes no array, no calculation touches other files, other processes save nothing. The arrays are averages over all processes of the work on equal shares of the samples; the number of samples in the configuration becomes the least multiple of the number of processes that is not less, and no other parameter changes. A configuration with unknown parameters is refused before anything is written; otherwise prefix.config.pkl holds the configuration and read_config gives it back.", "quantifier": "all directories, prefixes without a slash, states of the file system, configurations, numbers of processes, sequences of calculations and outcomes of the numerical work", "why_tests_cant": "whether files of different runs get in each other's way depends on the order of calls, on names and on what is on the disk already", "anchors": ["tbplas/tbpm/solver.py:Solver.__init__", "tbplas/tbpm/solver.py:Solver.set_output", "tbplas/tbpm/solver.py:Solver.save_config", "tbplas/tbpm/solver.py:Solver._save_data", "tbplas/tbpm/solver.py:Solver.calc_corr_dos", "tbplas/tbpm/solver.py:Solver.calc_corr_dc_cond", "tbplas/tbpm/solver.py:Solver.calc_psi_t", "tbplas/tbpm/config.py:read_config"]}
{"id": "C95", "title": "Collective operations act on items, not on memory", "statement": "For arrays of one shape that all processes hold in the same order (row-major or column-major, whole arrays or contiguous parts of larger ones), all_reduce gives every process the array whose items are the sums of the items; reduce gives it to the master and None to the others; all_average and average give the sums divided by the number of processes; bcast gives every process the items of the master and leaves the memory around its array alone. Arrays with gaps in memory raise ValueError, averages of integer arrays TypeError. Without MPI all of them return their argument. Arrays with at most one dimension longer than 1 have no other order.", "quantifier": "all shapes with any number of dimensions including empty ones, all strides and offsets that numpy allows, all contents, all numbers of processes", "why_tests_cant": "tests with one process or one-dimensional arrays cannot see the order of memory, and a wrong order raises no error", "anchors": ["tbplas/parallel.py:MPIEnv.__get_array_order", "tbplas/parallel.py:MPIEnv.reduce", "tbplas/parallel.py:MPIEnv.all_reduce", "tbplas/parallel.py:MPIEnv.average", "tbplas/parallel.py:MPIEnv.all_average", "tbplas/parallel.py:MPIEnv.bcast"]}
{"id": "C96", "title": "Orbitals sit where their Cartesian coordinates say", "statement": "add_orbital_cart appends an orbital whose row of orb_pos_nm is the given position times the unit (two coordinates mean z = 0); with the default unit it is the row of orb_pos_ang, with unit NM the row of orb_pos_nm. set_orbital_cart changes this row for one orbital, also for negative indices, and changes energy and label only when given; without position no orbital moves; writing back what orb_pos_nm reports changes nothing. Neither call touches other orbitals, hopping terms, lattice or origin. Locked cells, positions of other lengths, lattices that do not span space and unknown orbitals are refused and leave the cell as it was. dr_nm lists for each hopping term <i,0|H|j,R> the vector from orbital i to the image of orbital j in cell R, dr_ang ten times that; neither depends on the origin.", "quantifier": "all lattices, origins, units, positions, orbitals, hopping terms and indices", "why_tests_cant": "tests place orbitals in a few lattices, mostly with the origin at zero and one unit; a confusion of units, of row and column vectors or of signs shows only for skew lattices with a displaced origin", "anchors": ["tbplas/builder/primitive.py:PrimitiveCell.add_orbital_cart", "tbplas/builder/primitive.py:PrimitiveCell.set_orbital_cart", "tbplas/builder/primitive.py:PrimitiveCell.orb_pos_nm", "tbplas/builder/primitive.py:PrimitiveCell.orb_pos_ang", "tbplas/builder/primitive.py:PrimitiveCell.dr", "tbplas/builder/primitive.py:PrimitiveCell.dr_nm", "tbplas/builder/primitive.py:PrimitiveCell.dr_ang"]}
{"id": "C97", "title": "Results do not depend on the number of threads", "statement": "With any number of OpenMP threads, any distribution of the iterations over them, any uninitialised private values and any interleaving of their memory accesses, every parallel loop of the Fortran extension ends with the same contents of the shared arrays: products of sparse matrices with vectors, arithmetic of vectors, current and density coefficients, Chebyshev coefficients of the Fermi operator, Jackson kernel, Gamma matrix of the Kubo-Bastin formula, quasi-eigenstates, moments, local density of states of the recursion method, stages of the Fourier transform, pairs of bands and response functions of the Lindhard formula. Each item is the closed formula of its loop, items outside the range of the loop and all other arrays keep their contents, and sums with a reduction clause are the sum over all iterations. The threads can always finish.", "quantifier": "all numbers of threads, distributions of iterations, interleavings, array contents and loop bounds", "why_tests_cant": "a data race shows only on some interleavings, on some machines and with some numbers of threads; tests run one schedule, often with one thread", "anchors": ["tbplas/fortran/math.F90", "tbplas/fortran/csr.F90", "tbplas/fortran/fft.F90", "tbplas/fortran/funcs.f90", "tbplas/fortran/kpm.f90", "tbplas/fortran/lindhard.f90", "tbplas/fortran/random.f90", "tbplas/fortran/tbpm.f90", "tbplas/fortran/analysis.f90"]}
{"id": "C98", "title": "A printed cell can be read back", "statement": "For a primitive cell built by any calls, PrimitiveCell.print writes one line for the origin, for each lattice vector, for each orbital and for each hopping term. Numbers between -99.999995 and 999.999995 stand as separate words and equal the numbers of the cell to five decimals. Every hopping term is listed once with its cell index, orbital pair and energy, and the amplitudes of the model are exactly those of the listed terms and their conjugates. Integers are printed so that int() returns them. Wider numbers run into the neighbouring column. Banners are as wide as asked, or as the text needs, with the text in the middle.", "quantifier": "all histories of calls, lattices, origins, positions, energies, texts and widths", "why_tests_cant": "tests compare or ignore the output of a few cells; whether the columns stay apart depends on the size and the sign of the numbers", "anchors": ["tbplas/builder/primitive.py:730-752", "tbplas/utils.py:355-403"]}
