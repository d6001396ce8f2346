{"id": "C01", "title": "MPI task distribution is an exact ordered partition", "statement": "For any number of tasks and any positive number of ranks, the task lists the ranks get (my_tasks) read in rank order are exactly 0,1,...,ntasks-1: no task is lost, duplicated or reordered.", "quantifier": "all ntasks >= 0, all communicator sizes >= 1, all ranks", "why_tests_cant": "finitely many (ntasks,size) pairs can be tried; excess handling depends on ntasks mod size", "anchors": ["src/dga/mpi_aux.py:MpiDistributor.distribute_tasks", "src/dga/mpi_aux.py:MpiDistributor.my_tasks"]}
{"id": "C02", "title": "MPI load is balanced", "statement": "Rank sizes sum to ntasks and any two ranks differ by at most one task; the larger shares are held by the last ranks.", "quantifier": "all ntasks >= 0, sizes >= 1, all pairs of ranks", "why_tests_cant": "same as C01", "anchors": ["src/dga/mpi_aux.py:MpiDistributor.distribute_tasks", "src/dga/mpi_aux.py:MpiDistributor.sizes"]}
{"id": "C03", "title": "scatter followed by gather/allgather is the identity", "statement": "Scattering an array whose first axis has length ntasks and gathering the unmodified pieces returns the array; a row-wise map applied by every rank between scatter and gather equals the serial row-wise map.", "quantifier": "all arrays, all rank counts, all per-row functions", "why_tests_cant": "the interaction of sizes and offsets holds only if it holds for every remainder class", "anchors": ["src/dga/mpi_aux.py:MpiDistributor.scatter", "src/dga/mpi_aux.py:MpiDistributor.gather", "src/dga/mpi_aux.py:MpiDistributor.allgather"]}
{"id": "C04", "title": "Reductions do not depend on the number of ranks", "statement": "Summing a quantity over my_tasks on each rank and all-reducing gives the serial sum over all tasks, for any number of ranks (exact arithmetic).", "quantifier": "all task functions, all ntasks, all rank counts", "why_tests_cant": "rank-count independence is a universally quantified statement over schedules/partitions", "anchors": ["src/dga/mpi_aux.py:MpiDistributor.allreduce", "src/dga/four_point.py:schwinger_dyson_kernel_q", "src/dga/dga_main.py:main"]}
{"id": "C05", "title": "uniquify returns an unused path", "statement": "uniquify(path) terminates on every finite file system and returns p + \"/\" where p did not exist; p is path itself when it was free, else the numbered variant with the smallest free counter.", "quantifier": "all paths, all finite sets of existing paths", "why_tests_cant": "the set of existing directories is unbounded", "anchors": ["src/dga/util.py:uniquify"]}
{"id": "C06", "title": "Matsubara index grids are centred and ordered", "statement": "vn(n) lists the 2n indices -n..n-1 in order and is symmetric under v -> -v-1 (physical frequencies antisymmetric); wn(n) lists the 2n+1 indices -n..n and is antisymmetric; pos=True gives exactly the non-negative part; shift adds a constant.", "quantifier": "all n >= 0, shifts, positions and beta", "why_tests_cant": "holds for every grid size", "anchors": ["src/dga/matsubara_frequencies.py:vn", "src/dga/matsubara_frequencies.py:wn"]}
{"id": "C07", "title": "Frequency-shift conventions carry the same transferred frequency", "statement": "get_freq_shift returns two shifts whose difference is iwn for \"center\", 0/iwn for \"plus\", 0/-iwn for \"minus\"; the window [-niv,niv) shifted by either stays inside a grid with niv+|iwn| points; any other notation raises NotImplementedError.", "quantifier": "all integers iwn (negative and odd included), all notation strings", "why_tests_cant": "floor division of negative odd integers is exactly where sampled tests miss", "anchors": ["src/dga/matsubara_frequencies.py:get_freq_shift"]}
{"id": "C08", "title": "Fermionic completion from positive frequencies", "statement": "fermionic_full_nu_range doubles the axis, its positive half is the input, and the result obeys f(-v-1)=conj f(v); conversely any array with that symmetry is recovered from its positive half.", "quantifier": "all arrays of all lengths over any type with an involutive conjugation", "why_tests_cant": "all lengths and contents", "anchors": ["src/dga/matsubara_frequencies.py:fermionic_full_nu_range", "src/dga/matsubara_frequencies.py:clip_pos_mf_vn"]}
{"id": "C09", "title": "Bosonic completion from non-negative frequencies", "statement": "bosonic_full_nu_range turns n+1 values into 2n+1 values with f(-w)=conj f(w) for w>0, the zero frequency occurring once, and recovers any symmetric array from its non-negative half.", "quantifier": "all arrays of all lengths", "why_tests_cant": "all lengths and contents", "anchors": ["src/dga/matsubara_frequencies.py:bosonic_full_nu_range"]}
{"id": "C10", "title": "Frequency cuts select the centred window", "statement": "cut_v/cut_w with a cut not larger than the grid return the values at exactly the indices -niv_cut..niv_cut-1 (resp. -niw_cut..niw_cut); cuts compose (cut a then b = cut b for b <= a); -1 is the identity.", "quantifier": "all arrays, all 0 <= cut <= niv", "why_tests_cant": "all sizes", "anchors": ["src/dga/matsubara_frequencies.py:cut_v", "src/dga/matsubara_frequencies.py:cut_v_1d", "src/dga/matsubara_frequencies.py:cut_w"]}
{"id": "C11", "title": "Core and shell decompose a grid", "statement": "inv_cut_v with explicit shell returns exactly the indices outside the core; concatenate_core_asmypt(cut_v core, inv_cut_v shell) rebuilds the original array; append_v_vp_shell puts the matrix in the centre and val elsewhere, and cut_v of it is the matrix.", "quantifier": "all arrays, all core/shell sizes", "why_tests_cant": "all sizes; python slicing wraps silently on negative starts", "anchors": ["src/dga/matsubara_frequencies.py:inv_cut_v_1d", "src/dga/matsubara_frequencies.py:concatenate_core_asmypt", "src/dga/matsubara_frequencies.py:append_v_vp_shell"]}
{"id": "C12", "title": "w -> v-vp index transformation", "statement": "w_to_vmvp(mat)[v,vp] = mat at bosonic index v-vp for every v,vp of the returned square, with no index wrap-around.", "quantifier": "all bosonic arrays", "why_tests_cant": "all sizes", "anchors": ["src/dga/matsubara_frequencies.py:w_to_vmvp"]}
{"id": "C13", "title": "Frequency-shifted slices", "statement": "wn_slices_gen / wn_slices_shell / cut_iv_with_iw_shift return at position v the value at v-w for every listed w provided the stored grid is large enough, for the core and for both shells.", "quantifier": "all arrays, all w lists, all core/shell sizes within the box", "why_tests_cant": "all sizes and signs of w", "anchors": ["src/dga/matsubara_frequencies.py:wn_slices_gen", "src/dga/matsubara_frequencies.py:wn_slices_shell", "src/dga/matsubara_frequencies.py:cut_iv_with_iw_shift"]}
{"id": "C14", "title": "Adding bosonic objects of different size", "statement": "add_bosonic aligns the zero frequency, is commutative, keeps the larger grid and leaves frequencies outside the smaller grid unchanged.", "quantifier": "all pairs of odd-length bosonic arrays", "why_tests_cant": "all sizes", "anchors": ["src/dga/matsubara_frequencies.py:add_bosonic"]}
{"id": "C15", "title": "ph -> pp transformation is total", "statement": "ph2pp never indexes outside its input and returns F(w=v+vp+1-w_pp, v, vp) for every pp frequency it lists.", "quantifier": "all input box sizes", "why_tests_cant": "index arithmetic with two integer divisions", "anchors": ["src/dga/matsubara_frequencies.py:ph2pp", "src/dga/matsubara_frequencies.py:ph2pp_iwn"]}
{"id": "C16", "title": "ph -> pp (w-centred) transformation domain", "statement": "ph2pp_wc either raises IndexError or returns -F(v-vp, v, w_pp-vp-1) everywhere, never a wrapped-around value; it succeeds exactly when niw//2 + min(niw//2,niv//2) <= niv.", "quantifier": "all input box sizes", "why_tests_cant": "negative python indices wrap silently, success depends on box ratio", "anchors": ["src/dga/matsubara_frequencies.py:ph2pp_wc", "src/dga/matsubara_frequencies.py:ph2pp_iwn_wc"]}
{"id": "C17", "title": "Folding the Brillouin zone loses nothing for symmetric functions", "statement": "For every mesh and every list of known symmetries, map_irrk2fbz(map_fbz2irrk(f)) = f for every f invariant under the point operations the list names.", "quantifier": "all nk, all symmetry lists in any order, all invariant functions", "why_tests_cant": "all meshes/odd-even sizes/functions", "anchors": ["src/dga/brillouin_zone.py:KGrid.map_irrk2fbz", "src/dga/brillouin_zone.py:KGrid.map_fbz2irrk", "src/dga/brillouin_zone.py:apply_symmetries"]}
{"id": "C18", "title": "Unfolding then folding is the identity", "statement": "map_fbz2irrk(map_irrk2fbz(g)) = g for every array on the irreducible points, and the unfolded array has every symmetry of the list when the list consists of axis inversions optionally followed by x-y-sym (all predefined lists but one). Intended for every known list, but refuted: for ['x-y-inv'] on every mesh with ny>=3, and when x-y-sym is not last.", "quantifier": "all nk, symmetries, arrays", "why_tests_cant": "all meshes", "anchors": ["src/dga/brillouin_zone.py:KGrid.map_irrk2fbz", "src/dga/brillouin_zone.py:KGrid.map_fbz2irrk"]}
{"id": "C19", "title": "Irreducible-zone averages equal full-zone averages", "statement": "irrk_count sums to nk_tot, and k_mean(g,\"irrk\") = k_mean(map_irrk2fbz(g),\"fbz-mesh\") for every g.", "quantifier": "all nk, symmetries, arrays", "why_tests_cant": "all meshes", "anchors": ["src/dga/brillouin_zone.py:KGrid.k_mean", "src/dga/brillouin_zone.py:KGrid.set_irrk_maps"]}
{"id": "C20", "title": "Momentum shifts form a group action", "statement": "Shifting a mesh by index q and then q2 equals shifting by q+q2, shifting by a multiple of the grid is the identity, and the value at k after shift by -q is the value at k+q (periodic).", "quantifier": "all meshes, all integer shifts", "why_tests_cant": "all sizes and shifts", "anchors": ["src/dga/brillouin_zone.py:shift_mat_by_ind", "src/dga/brillouin_zone.py:KGrid.shift_mat_by_pi"]}
{"id": "C21", "title": "Local BSE inversion round trip", "statement": "gchir_from_gamob2(gamob2_from_gchir(chi)) = chi and conversely, whenever the inverses numpy computes exist.", "quantifier": "all frequency-box sizes, all invertible matrices over any field", "why_tests_cant": "infinitely many matrices", "anchors": ["src/dga/local_four_point.py:gamob2_from_gchir_wn", "src/dga/local_four_point.py:gchir_from_gamob2_wn"]}
{"id": "C22", "title": "Full vertex round trip and Bethe-Salpeter equation", "statement": "gchir_from_fob2(fob2_from_gchir(chi)) = chi and conversely; and the full vertex of chi satisfies F = Gamma (1 + chi0 Gamma)^-1.", "quantifier": "all sizes, all non-singular bubbles", "why_tests_cant": "infinitely many matrices", "anchors": ["src/dga/local_four_point.py:fob2_from_gchir", "src/dga/local_four_point.py:gchir_from_fob2", "src/dga/local_four_point.py:fob2_from_gamob2_urange"]}
{"id": "C23", "title": "U-range asymptotics are exact for a U-padded vertex", "statement": "If the irreducible vertex equals the bare U outside the core, then gamob2_from_gchir_urange recovers the core vertex exactly from the core block of the full susceptibility.", "quantifier": "all core and shell sizes, all vertices and bubbles for which the inverses exist", "why_tests_cant": "block-matrix identity for all sizes", "anchors": ["src/dga/local_four_point.py:gamob2_from_gchir_urange_wn", "src/dga/local_four_point.py:get_urange"]}
{"id": "C24", "title": "Physical susceptibility from the auxiliary one", "statement": "chi_phys_urange equals the contracted full susceptibility of the U-padded vertex, i.e. 1/beta^2 sum_{vv'} of (chi0^-1 + Gamma_urange)^-1.", "quantifier": "all core and shell sizes", "why_tests_cant": "rank-one update identity for all sizes", "anchors": ["src/dga/local_four_point.py:chi_phys_urange", "src/dga/four_point.py:chi_phys_from_chi_aux_q", "src/dga/local_four_point.py:gchi_aux_core_from_gammar"]}
{"id": "C25", "title": "Vertex reconstruction from three-leg vertex and auxiliary susceptibility", "statement": "The two components written to the rank files recombine, f1 + (1-u_r chi) f2, to beta^2 times the full vertex of the Bethe-Salpeter equation.", "quantifier": "all box sizes, all Gamma, chi0", "why_tests_cant": "matrix identity for all sizes", "anchors": ["src/dga/four_point.py:ladder_vertex_from_chi_aux_components", "src/dga/local_four_point.py:fob2_from_vrg_and_chir", "src/dga/four_point.py:build_vertex_fq"]}
{"id": "C26", "title": "Asymptotic correction is consistent", "statement": "vrg_from_gchi_aux_asympt reduces to vrg_from_gchi_aux when the asymptotic and u-range susceptibilities coincide, and keeps (1-u_r chi) vrg invariant otherwise, so the Schwinger-Dyson core kernel does not depend on the asymptotic correction.", "quantifier": "all inputs with non-zero denominators", "why_tests_cant": "algebraic identity", "anchors": ["src/dga/local_four_point.py:vrg_from_gchi_aux_asympt", "src/dga/four_point.py:get_kernel"]}
{"id": "C27", "title": "Generalised susceptibility <-> two-particle Green function", "statement": "g2_from_chir(gchir_from_g2(g2)) = g2 for every channel and every set of stored bosonic frequencies, and the disconnected part is removed only in the density channel at w=0.", "quantifier": "all channels, frequency lists, beta != 0", "why_tests_cant": "all contents", "anchors": ["src/dga/local_four_point.py:gchir_from_g2", "src/dga/local_four_point.py:g2_from_chir"]}
{"id": "C28", "title": "Ladder vertex files survive a write/load cycle (non-negative w only)", "statement": "Intended: every (q, w, channel) vertex component written by the ranks is returned by load_vertex_from_rank_files at the index of that q and that w. Holds for w >= 0; refuted for w < 0: the loader parses the group name with a pattern that drops the sign, so every negative frequency comes back as zero (and is overwritten at +|w| by the positive one, which is always read last).", "quantifier": "all numbers of ranks, schedules, q points and bosonic frequencies", "why_tests_cant": "all file contents and rank partitions", "anchors": ["src/dga/four_point.py:write_vertex_components", "src/dga/four_point.py:load_vertex_from_rank_files"]}
{"id": "C29", "title": "Pairing vertex files survive a write/load cycle as the Hermitian part", "statement": "load_pairing_vertex_from_rank_files returns at (v,vp) half the sum of -F(v-vp,v,-vp) and the conjugate of -F(vp-v,vp,-v), every entry being filled exactly once, for any number of ranks.", "quantifier": "all niv_pp, niw >= 2 niv_pp - 1, ranks, q points, vertices", "why_tests_cant": "all sizes", "anchors": ["src/dga/pairing_vertex.py:write_pairing_vertex_components", "src/dga/pairing_vertex.py:load_pairing_vertex_from_rank_files", "src/dga/pairing_vertex.py:get_pp_slice_4pt"]}
{"id": "C30", "title": "chi(w) -> chi(v-vp) for the pairing vertex", "statement": "reshape_chi returns chi(v-vp) at (v,vp) for every v,vp and never wraps when niv_pp = min(niw//2, niv//2).", "quantifier": "all box sizes", "why_tests_cant": "all sizes", "anchors": ["src/dga/pairing_vertex.py:reshape_chi", "src/dga/config.py:BoxSizes.niv_pp"]}
{"id": "C31", "title": "Bubble definition and conjugation symmetry", "statement": "The local bubble equals -beta G(v+s1) G(v+s2) on the requested window, its leg contraction is the summed bubble, and for conjugation-symmetric G the is_full_wn shortcut (computing w>=0 and mirroring) returns the same values for the full range w=-nw..nw. Holds for the plus and minus conventions; refuted for center, where the shortcut moves the rows of odd negative w by one fermionic frequency, and for symmetric w grids with gaps, where only the number of frequencies is looked at.", "quantifier": "all G, boxes, conventions and w", "why_tests_cant": "all sizes and signs of w", "anchors": ["src/dga/bubble.py:get_gchi0", "src/dga/bubble.py:vec_get_gchi0"]}
{"id": "C32", "title": "Lattice bubble is translation covariant and its q-average is the local bubble", "statement": "get_gchi0_q is the k-average of -beta G(k,v+s1) G(k+q,v+s2) (k+q in every convention, although the docstring says k-q), independent of the internal frequency cut; it is periodic in q, invariant under a common momentum shift of G, satisfies the crossing relation (q,w)->(-q,-w), agrees with the is_full_wn shortcut for plus and minus, and its average over all q of the mesh is the local bubble -beta Gloc Gloc.", "quantifier": "all meshes, all G", "why_tests_cant": "double sum exchange over all meshes", "anchors": ["src/dga/bubble.py:get_gchi0_q", "src/dga/bubble.py:BubbleGenerator.get_gchi0_q_list"]}
{"id": "C33", "title": "Self-energy stitching", "statement": "The DGA self-energy returned with DMFT asymptotics agrees with the DGA values on the core window, with the DMFT self-energy on the shell and with the DMFT tail beyond, with no frequency dropped or duplicated; it is DMFT everywhere outside the core if the window reaches the DMFT core. (Finding: otherwise DMFT data between the window and the DMFT core is replaced by the tail.)", "quantifier": "all box sizes, momenta, conjugation-symmetric data, requested windows", "why_tests_cant": "all sizes", "anchors": ["src/dga/two_point.py:create_dga_siwk_with_dmft_as_asympt", "src/dga/two_point.py:SelfEnergy"]}
{"id": "C34", "title": "Schwinger-Dyson equation is additive over q points", "statement": "schwinger_dyson_kernel_q returns 1/(nq beta) sum_{q,w} Ker(q,w,v) G(k+q,v-w) at every k and v; the contribution of a q list is the sum of the contributions of its parts, it is linear in the kernel, and distributed over any number of ranks, reduced in any order, the total is the sum over all momenta.", "quantifier": "all q lists, partitions, rank numbers, reduction orders, kernels and Green functions on boxes that contain the shifted windows", "why_tests_cant": "all partitions and schedules", "anchors": ["src/dga/four_point.py:schwinger_dyson_kernel_q", "src/dga/four_point.py:schwinger_dyson_vrg_q", "src/dga/four_point.py:schwinger_dyson_q_shell"]}
{"id": "C35", "title": "Lambda correction enforces the sum rule above the pole", "statement": "Every returned susceptibility is 1/(1/chi + lambda). For a physical chi the lambda search, whatever its iteration limit, returns a lambda above the pole, so the corrected chi is positive everywhere; if the search stopped by its criterion the sum rule holds with error in [0, eps) (provided the start offset is fine enough); with a large enough limit it does stop; the lambda fulfilling the sum rule above the pole is unique; type spch corrects both channels, sp the magnetic one against the total sum, an unknown type raises. (Finding: running out of iterations is silent.)", "quantifier": "all physical susceptibilities, temperatures, targets, tolerances, start offsets and iteration limits", "why_tests_cant": "all inputs, loop histories of a Newton search with restart at a pole", "anchors": ["src/dga/lambda_correction.py:lambda_correction_single", "src/dga/lambda_correction.py:use_lambda", "src/dga/lambda_correction.py:lambda_correction", "src/dga/lambda_correction.py:get_lambda_start"]}
{"id": "C36", "title": "Pairing-vertex symmetrisation is a projector", "statement": "symmetrize_gamma returns the even (sing) or odd (trip) part of the vertex in its second frequency: it has that parity, a second application changes nothing, both parts add up to the vertex, any other channel name raises ValueError; with such a vertex and |G(k,v)| even in v only the part of the gap with the same frequency parity enters the gap equation.", "quantifier": "all vertices, meshes, frequency windows, Green functions and gaps", "why_tests_cant": "all contents", "anchors": ["src/dga/eliashberg_equation.py:symmetrize_gamma"]}
{"id": "C37", "title": "Power iteration terminates at the first iterate fulfilling its rule", "statement": "Every eigenvalue search ends after at least one and at most max(1,max_count+1) iterations, exactly at the first iterate whose eigenvalue estimate differs from the previous by less than eps or whose number exceeds max_count; get_eig performs n_eig such searches, each orthogonalised against the gaps already found, with the kernel shifted by a dominant non-positive eigenvalue which is added back; an exact eigenvector as start is returned with its exact eigenvalue. (Finding: if the first search returns a multiple of the start gap, the second search starts from the zero vector and divides 0 by 0.)", "quantifier": "all kernels, start gaps, tolerances (also eps <= 0), iteration limits (also negative), shifts and numbers of eigenvalues", "why_tests_cant": "loop history", "anchors": ["src/dga/eliashberg_equation.py:EliashberPowerIteration"]}
{"id": "C38", "title": "Orbital/spin component index encoding is a bijection", "statement": "The 1-based compound index of (band,spin) components and its decoder are mutually inverse on their full ranges.", "quantifier": "all numbers of bands, all components", "why_tests_cant": "all band counts", "anchors": ["src/dga/symmetrize.py:index2component_general", "src/dga/symmetrize.py:component2index_band", "src/dga/symmetrize.py:index2component_band"]}
{"id": "C39", "title": "Tight-binding dispersions", "statement": "The Wannier Hamiltonian built for the square lattice gives at every k, and at the right entry of the mesh array, the textbook dispersion -2t(cos kx+cos ky) -4t' cos kx cos ky -2t''(cos 2kx+cos 2ky); the nematic builder gives its anisotropic version; the real-space Emery model gives the Bloch Hamiltonian written down by emery_model_ek; ek_3d and ekpq_3d agree with them. Finding: ek_3d multiplies the z entry of the second-neighbour row by cos(kz) instead of cos(2kz).", "quantifier": "all real k, hoppings and mesh sizes", "why_tests_cant": "continuum of k", "anchors": ["src/dga/wannier.py:wannier_one_band_2d_t_tp_tpp", "src/dga/wannier.py:wannier_one_band_2d_nematic", "src/dga/wannier.py:wannier_emery_model", "src/dga/wannier.py:WannierHr.get_ek", "src/dga/wannier.py:ek_square", "src/dga/wannier.py:ek_3d"]}
{"id": "C40", "title": "Light vertex is the derivative of the dispersion", "statement": "The light vertex returned for direction i is the partial derivative of H(k) along i, for every real-space Hamiltonian and every k, on the mesh as well; on the square lattice it is the explicit formula of del_ek_del_kx_square, and odd in k.", "quantifier": "all Hamiltonians, directions and real k", "why_tests_cant": "continuum of k", "anchors": ["src/dga/wannier.py:WannierHr.get_light_vertex", "src/dga/wannier.py:light_vertex", "src/dga/wannier.py:del_ek_del_kx_square"]}
{"id": "C41", "title": "Pade interpolant reproduces its data", "statement": "The Thiele continued fraction built from points z_i,u_i takes the value u_i at z_i for every i (whenever no divisor of the difference table or of the evaluated denominator vanishes); the vectorised routine evaluates the same approximant at every output point; every exact solution of the matrix-Pade linear system interpolates its data. Intended: the coefficient helper a() returns all coefficients; refuted: it returns one too few, so evaluating with it raises IndexError.", "quantifier": "all numbers of points, all data over any field", "why_tests_cant": "all sizes and contents", "anchors": ["src/dga/pade_aux.py:compute_coefficients", "src/dga/pade_aux.py:C", "src/dga/pade_aux.py:padeThiele", "src/dga/pade_aux.py:padeMatrix", "src/dga/pade_aux.py:a"]}
{"id": "C42", "title": "Configuration of the frequency boxes", "statement": "BoxSizes.set_from_lfp replaces exactly the unset (-1) cores by the sizes of the data, refuses exactly the configured cores larger than the data, and keeps niv_full = niv_core + niv_shell; the pairing window and the optics windows derived from the box only address frequencies that are stored. Intended: an unset niv_asympt becomes niv_full + 2 niw_core and the optics vertex window is never empty; holds when both cores are configured (or the value computed at construction is not positive), resp. when niw_cond is configured; refuted otherwise.", "quantifier": "all configured integers and data sizes", "why_tests_cant": "all configurations", "anchors": ["src/dga/config.py:BoxSizes", "src/dga/config.py:OpticsConfig.set_frequency_ranges"]}
{"id": "C43", "title": "k-path segments stay on the mesh", "statement": "Every index of a k-path lies inside the mesh along its own axis, corners lying on the mesh are visited at the sum of the preceding segment lengths, and on isotropic meshes the physical coordinates returned are those of the mesh points visited. (Intended for every mesh, but refuted for anisotropic ones: y and z coordinates come from the x axis, or IndexError; and the tick positions cind are one below the corner positions.)", "quantifier": "all meshes (anisotropic included) and corner points", "why_tests_cant": "all meshes", "anchors": ["src/dga/brillouin_zone.py:KPath.get_kpath_val", "src/dga/brillouin_zone.py:kpath_segment"]}
{"id": "C44", "title": "Symmetrisation of lattice functions", "statement": "Intended: KGrid.symmetrize_irrk returns, for every mesh function, the function averaged over equivalent points. Refuted: it raises IndexError on every grid.", "quantifier": "all meshes and functions", "why_tests_cant": "all meshes", "anchors": ["src/dga/brillouin_zone.py:KGrid.symmetrize_irrk"]}
{"id": "C45", "title": "Gap-function orthogonalisation", "statement": "Intended: gram_schmidt returns a vector orthogonal to every vector of the supplied basis, differing from the input by multiples of basis vectors. Holds for bases whose vectors are mutually orthogonal (which is the case up to two searches); refuted for other bases because every projection is taken of the original vector.", "quantifier": "all vectors and bases of any size", "why_tests_cant": "all contents", "anchors": ["src/dga/eliashberg_equation.py:gram_schmidt"]}
{"id": "C46", "title": "Centred frequency sums take exactly the announced window", "statement": "vn_centered_sum sums, for bosonic index w and box niv_sum, exactly the entries whose two fermionic indices lie in [-niv_sum+w//2, niv_sum+w//2); wn_sum sums exactly -niw_sum..niw_sum; -1 means everything.", "quantifier": "all arrays, grid sizes, windows that fit, and bosonic indices of either sign", "why_tests_cant": "window arithmetic with floor division of negative odd w", "anchors": ["src/dga/matsubara_frequencies.py:vn_centered_sum", "src/dga/matsubara_frequencies.py:wn_sum"]}
{"id": "C47", "title": "Look-up by bosonic index", "statement": "get_mat_at_iwn(mat,w) returns the slice stored for w for every w of the grid, and mat_at_w0 the one for w=0; a w outside the grid is not silently replaced by another frequency.", "quantifier": "all arrays and all integers w", "why_tests_cant": "all w including out of range", "anchors": ["src/dga/matsubara_frequencies.py:get_mat_at_iwn", "src/dga/matsubara_frequencies.py:mat_at_w0"]}
{"id": "C48", "title": "Momentum lists and representatives", "statement": "get_q_list lists every mesh point once in C order; get_irrq_list lists one point per irreducible index, each being its own representative, and every mesh point is connected to the representative it is mapped to by a chain of the listed point operations.", "quantifier": "all meshes and all lists of known symmetries", "why_tests_cant": "all meshes and symmetry lists", "anchors": ["src/dga/brillouin_zone.py:KGrid.get_q_list", "src/dga/brillouin_zone.py:KGrid.get_irrq_list", "src/dga/brillouin_zone.py:KGrid.set_irrk_maps"]}
{"id": "C49", "title": "Quadrant masks", "statement": "The four Brillouin-zone quadrant masks are 0/1 valued and exactly one of them vanishes at every mesh point (odd meshes included).", "quantifier": "all mesh sizes and points", "why_tests_cant": "all sizes", "anchors": ["src/dga/brillouin_zone.py:get_bz_masks"]}
{"id": "C50", "title": "Momentum look-up", "statement": "find_q_ind returns for every real q a mesh index with minimal distance on [0,2pi), hence exactly i for q = 2 pi i/n; equivalence modulo 2 pi is not taken into account (q = 2 pi is mapped to the last point, not to 0).", "quantifier": "all mesh sizes, all real q", "why_tests_cant": "continuum of q", "anchors": ["src/dga/brillouin_zone.py:KGrid.find_q_ind", "src/dga/brillouin_zone.py:KGrid.shift_mat_by_q"]}
{"id": "C51", "title": "Shell-corrected lambda and susceptibility are exact for a U-padded vertex", "statement": "If the irreducible vertex is the bare U outside the core box, get_lam_tilde and get_chir_tilde applied to the core block of chi return the row sums and the physical susceptibility of the full box.", "quantifier": "all box sizes, bubbles, vertices with the assumed structure, signs +-1 and 1-(u chi0_shell)^2 <> 0", "why_tests_cant": "algebraic identity over all matrices and box sizes", "anchors": ["src/dga/local_four_point.py:get_lam_tilde", "src/dga/local_four_point.py:get_chir_tilde", "src/dga/local_four_point.py:get_chir_shell", "src/dga/local_four_point.py:lam_from_chir"]}
{"id": "C52", "title": "Auxiliary susceptibility is route- and box-independent", "statement": "gchi_aux_core(chi) equals gchi_aux_core_from_gammar(gamma) whenever chi solves the Bethe-Salpeter equation of gamma; on a larger box padded with U the auxiliary susceptibility is the core one plus the bare bubble on the shell diagonal.", "quantifier": "all matrices, bubbles without zeros, core/shell sizes", "why_tests_cant": "identity of matrix inverses for every size", "anchors": ["src/dga/local_four_point.py:gchi_aux_core", "src/dga/local_four_point.py:gchi_aux_core_from_gammar", "src/dga/local_four_point.py:gchi_aux_core_from_gammar_urange"]}
{"id": "C53", "title": "Three-leg vertex: lambda route equals auxiliary route", "statement": "vrg_from_lam(lam_from_chir(chi), chi_phys) = vrg_from_gchi_aux(gchi_aux) on the same box.", "quantifier": "all solutions of the Bethe-Salpeter equation of any size", "why_tests_cant": "identity over all matrices", "anchors": ["src/dga/local_four_point.py:vrg_from_lam", "src/dga/local_four_point.py:vrg_from_gchi_aux"]}
{"id": "C54", "title": "Local Schwinger-Dyson equation: all routes agree", "statement": "schwinger_dyson_vrg and schwinger_dyson_f evaluate 1/beta sum_w K_w(v) G(v-w) with the right G for every (w,v); core plus shell equals the core formula on the full box with the three-leg vertex continued by 1; and the three-leg route equals sign/2 times the full-vertex route for a U-padded vertex.", "quantifier": "all frequency boxes, vertices, Green functions long enough for v-w", "why_tests_cant": "the stitching of core and shell windows and the algebra must hold for every box and every vertex", "anchors": ["src/dga/local_four_point.py:schwinger_dyson_vrg", "src/dga/local_four_point.py:schwinger_dyson_shell", "src/dga/local_four_point.py:schwinger_dyson_core_urange", "src/dga/local_four_point.py:schwinger_dyson_f"]}
{"id": "C55", "title": "Asymptotic correction of the auxiliary susceptibility", "statement": "Intended: the vertex rebuilt from the asymptotically corrected chi_aux, vrg and chi equals the uncorrected one. Holds if the inserted matrix is u_r/beta^2; refuted for the code of gchi_aux_asympt, which inserts u: the exact deviation is proved.", "quantifier": "all matrices, bubbles, susceptibilities", "why_tests_cant": "identity over all matrices", "anchors": ["src/dga/local_four_point.py:gchi_aux_asympt", "src/dga/local_four_point.py:fob2_from_vrg_and_chir"]}
{"id": "C56", "title": "Parallel writes are independent of the schedule", "statement": "While the ranks write their vertex files, no interleaving makes a write fail; all complete interleavings leave the same files; no file other than the ranks own is touched; distinct ranks use distinct files; a rank that gets enough turns finishes; and at any crash point each file holds exactly the datasets its rank has written so far.", "quantifier": "all interleavings of the ranks, all crash points, all numbers of ranks and q points", "why_tests_cant": "all schedules", "anchors": ["src/dga/mpi_aux.py:MpiDistributor", "src/dga/high_level_routines.py", "src/dga/pairing_vertex.py:write_pairing_vertex_components"]}
{"id": "C57", "title": "Optics vertex files survive a write/load cycle (non-negative w only)", "statement": "Intended: load_optics_vertex_from_rank_files returns F_q(w; v, v-wc) at (q, w, wc, v) for all written w. Holds for w >= 0; refuted for w < 0, which come back as zeros.", "quantifier": "all box sizes, ranks, schedules and q points", "why_tests_cant": "all sizes and schedules", "anchors": ["src/dga/optics.py:write_optics_vertex_components", "src/dga/optics.py:load_optics_vertex_from_rank_files", "src/dga/optics.py:get_vmw_v_slice"]}
{"id": "C58", "title": "A run on top of leftover rank files is refused", "statement": "If the rank files of an earlier run with the same parameters are still there, the first write of a rank that has anything to write raises ValueError; data of two runs are never mixed.", "quantifier": "all configurations, ranks and schedules", "why_tests_cant": "all histories", "anchors": ["src/dga/mpi_aux.py:MpiDistributor.__init__", "src/dga/pairing_vertex.py:write_pairing_vertex_components"]}
{"id": "C59", "title": "Orbital symmetrisation is the orbit average", "statement": "For data with a Kanamori interaction, symmetrize writes, for every channel and band group, the average over all orbital-equivalent groups of the spin combination of the channel; equivalent band groups therefore end up equal, no equivalent group is lost or counted twice, and for one SU(2)-symmetric band the result is chi_d = uu+ud, chi_m = uu-ud. (Findings: the consistency check accepts non-reflexive tables, and groups of other band type are dropped silently.)", "quantifier": "all numbers of bands, symmetry tables, group lists and values", "why_tests_cant": "all tables and data", "anchors": ["src/dga/symmetrize.py:get_symgroups", "src/dga/symmetrize.py:read_and_add", "src/dga/symmetrize.py:main", "src/dga/symmetrize.py:check_sym"]}
{"id": "C60", "title": "One-frequency symmetrisation", "statement": "The symmetrised Green function/self energy of a band is the mean over equivalent bands and spins: equivalent bands get the same value for both spins and data that already has the symmetry is returned unchanged.", "quantifier": "all numbers of bands, symmetry tables and values", "why_tests_cant": "all tables and data", "anchors": ["src/dga/symmetrize.py:main"]}
{"id": "C61", "title": "Lattice symmetry input", "statement": "A symmetry name in the configuration resolves to symmetries the Brillouin-zone code implements or is refused, and no configuration containing an unknown symmetry yields a momentum grid. (Findings: the check lets unknown names in a tuple pass, so that only building the grid fails, and refuses every YAML list, even of known names.)", "quantifier": "all strings, tuples and lists of strings, all meshes", "why_tests_cant": "all inputs", "anchors": ["src/dga/config.py:LatticeConfig.check_symmetries", "src/dga/brillouin_zone.py:KGrid"]}
{"id": "C62", "title": "Eliashberg kernel via Fourier transforms is the momentum convolution; parities are preserved", "statement": "One application of the kernel equals (1/norm) sum_{k',v'} gamma(k'-k;v,v') |G(k',v')|^2 Delta(k',v') on the periodic mesh. If the vertex is even under q -> -q and (v,v') -> (-v,-v') and |G|^2 even in k and v, all gap functions returned have the momentum parity of the configured symmetry and the frequency parity the Pauli principle demands.", "quantifier": "all meshes, frequency windows, vertices, Green functions, start symmetries, tolerances and limits", "why_tests_cant": "all contents and loop histories; unit tests check one kernel", "anchors": ["src/dga/eliashberg_equation.py:EliashberPowerIteration", "src/dga/eliashberg_equation.py:linear_eliashberg"]}
{"id": "C63", "title": "Start gap", "statement": "The start gap for d-wave, p-wave-x, p-wave-y changes under (k,v) -> (-k,-v) by +1 in the singlet and -1 in the triplet channel; an odd number of frequencies raises ValueError. (Finding: with the default symmetrised vertices a p-wave start gap is annihilated by the kernel in both channels, so that the first eigenvalue estimate is 0/division by zero, or, with a negative shift, 0 and the start gap itself are returned.)", "quantifier": "all meshes, windows, symmetries, vertices", "why_tests_cant": "all inputs", "anchors": ["src/dga/eliashberg_equation.py:get_gap_start", "src/dga/eliashberg_equation.py:linear_eliashberg", "src/dga/config.py:EliashbergConfig.set_gap0"]}
{"id": "C64", "title": "Symmetries of the Bloch Hamiltonian", "statement": "A real-space Hamiltonian with Hermitian hopping gives a Hermitian H(k) (real diagonal) at every k, with the period of the reciprocal lattice; the built-in models are Hermitian; on every mesh the square-lattice dispersion has the inversion symmetries and, if isotropic, the x-y symmetry that the irreducible zone assumes (the nematic one breaks the latter); the mesh sum of H(k) keeps exactly the hoppings along multiples of the mesh, so with more than two points per axis it is N times the on-site block.", "quantifier": "all Hamiltonians, k and mesh sizes", "why_tests_cant": "all meshes", "anchors": ["src/dga/wannier.py:convham", "src/dga/wannier.py:WannierHr.get_ek", "src/dga/wannier.py:wannier_emery_model"]}
{"id": "C65", "title": "Hr file round trip", "statement": "Reading a real-space Hamiltonian written by write_hr_w2k returns its matrix elements to the six written decimals, its lattice vectors, weights and orbital numbers in the same order. Intended for all Hamiltonians; holds when, in the columns after the first, integers and negative matrix elements are above -1000; refuted at -1000, where two columns fuse and reading fails. Finding: the Emery model carries wrong orbital numbers.", "quantifier": "all numbers of bands, vectors and contents", "why_tests_cant": "all contents", "anchors": ["src/dga/wannier.py:write_hr_w2k", "src/dga/wannier.py:read_hr_w2k", "src/dga/wannier.py:create_orbs"]}
{"id": "C66", "title": "Self-energy: one function on every window", "statement": "Whatever number of frequencies is requested, get_siw, sigma_core and get_sigma_full return windows of one conjugation-symmetric function: the data inside the core and smom0 - smom1/(i nu) outside; the moment fit is exact on an exact tail. Intended for all data; holds when the core is within the stored data; refuted for shorter data (always below 20 stored frequencies with the default core), where arrays have the wrong length and the Green function raises ValueError. Findings: data that never agrees with its tail gets the smallest core; a constant self-energy from sigma_const is constant up to the core only and decays beyond.", "quantifier": "all data, cores, windows, moments", "why_tests_cant": "all sizes and contents", "anchors": ["src/dga/two_point.py:SelfEnergy", "src/dga/two_point.py:fit_smom"]}
{"id": "C67", "title": "Green function: Dyson equation and causality", "statement": "The Green function on core plus any number of asymptotic frequencies is one conjugation-symmetric function, 1/(i nu + mu - e_k - Sigma) with the self-energy of get_siw; for causal data no denominator vanishes, Im G < 0 and |G| <= 1/nu at positive frequencies, at every momentum.", "quantifier": "all self-energies with core within the data, dispersions, mu, shells", "why_tests_cant": "all inputs", "anchors": ["src/dga/two_point.py:GreensFunction", "src/dga/two_point.py:build_g"]}
{"id": "C68", "title": "Filling and chemical potential", "statement": "The filling is exact in the atomic limit and one at the particle-hole symmetric point, for any number of frequencies; the fallback for large exponents errs by at most exp(-2x). A chemical potential that is a root reproduces the filling. Intended: the reported (mu, n) are consistent; refuted: a failed search silently yields mu = 0 with n reported as the target. Refuted for update_mu_primitive, which raises IndexError for every input.", "quantifier": "all frequency numbers, dispersions, self-energies", "why_tests_cant": "all inputs", "anchors": ["src/dga/two_point.py:get_fill", "src/dga/two_point.py:update_mu", "src/dga/two_point.py:GreensFunction"]}
{"id": "C69", "title": "Real-frequency Green function", "statement": "With Im Sigma <= 0 and positive broadening the real-frequency Green function satisfies Dyson equation, the spectral function is positive at every momentum and frequency and the filling on an ordered grid is not negative. (Finding: the outcome of the search for mu is not checked.)", "quantifier": "all grids, self-energies, dispersions, mu", "why_tests_cant": "all inputs", "anchors": ["src/dga/two_point.py:RealFrequencyGF", "src/dga/two_point.py:get_filling_real_f"]}
{"id": "C70", "title": "Energies are real", "statement": "Kinetic and potential energy are 1/beta sum_v of the momentum averages of e_k G and (Sigma - Hartree) G over core and shell and have exactly zero imaginary part, so that the assertions never fail.", "quantifier": "all self-energies with core within the data, dispersions, mu, shells", "why_tests_cant": "all inputs", "anchors": ["src/dga/two_point.py:GreensFunction.e_kin", "src/dga/two_point.py:GreensFunction.e_pot"]}
{"id": "C71", "title": "Bubble at irreducible momenta unfolds to the full zone", "statement": "For a Green function with the symmetries of the grid, the lattice bubble evaluated at the irreducible q list and unfolded with the grid equals the lattice bubble at every momentum of the mesh.", "quantifier": "all meshes, symmetry lists of known names, Green functions with those symmetries, frequency windows and conventions", "why_tests_cant": "meshes and symmetric functions are unbounded", "anchors": ["src/dga/bubble.py:vec_get_gchi0_q", "src/dga/brillouin_zone.py:KGrid.get_irrq_list", "src/dga/brillouin_zone.py:KGrid.map_irrk2fbz"]}
{"id": "C72", "title": "Diagonal vertex approximation", "statement": "get_f_diag(chi_dens, chi_magn, channel) has the entry (chi_d(v-vp) + 3 chi_m(v-vp))/2 for dens and (chi_d(v-vp) - chi_m(v-vp))/2 for magn at every pair (v,vp) of the window, and raises NotImplementedError for any other channel.", "quantifier": "all susceptibility arrays, windows and channel names", "why_tests_cant": "all sizes", "anchors": ["src/dga/local_four_point.py:get_f_diag", "src/dga/matsubara_frequencies.py:w_to_vmvp"]}
{"id": "C73", "title": "High-frequency corrections of the bubbles", "statement": "The local and the momentum-dependent correction are exactly the limit of the sums, over the frequencies outside the window, of the product of two Green functions expanded to fourth order in 1/(i nu) and averaged over the mesh; window sum plus correction differs from the converged bubble by at most K/niv^4 for every self-energy with the given moments; the corrections vanish for large windows and the q average of the momentum-dependent one is the local one. Holds for dispersions with mean zero (findings: otherwise the result depends on how mu and the mean energy are split) and, for the q version, bosonic frequencies not larger than their number (finding: single large frequencies raise or silently return the zero-frequency sum).", "quantifier": "all meshes, dispersions with mean zero, self-energies with given moments, windows, bosonic frequencies and frequency conventions", "why_tests_cant": "limits of infinite sums and error bounds for all windows", "anchors": ["src/dga/bubble.py:BubbleGenerator.get_asymptotic_correction", "src/dga/bubble.py:BubbleGenerator.get_asymptotic_correction_q", "src/dga/bubble.py:BubbleGenerator.get_exact_asymptotics"]}
{"id": "C74", "title": "Ladder self-energy routines", "statement": "schwinger_dyson_full_q is the lattice Schwinger-Dyson sum with kernel U/2(1-(1-U chi_d) g_d) - 3U/2(1-(1+U chi_m) g_m) - K_dc on the core and U^2/2 (chi_d + chi_m) on the shell; the one-channel routines and the double-counting routine are the corresponding sums with the given weights. Intended: with multiplicities as weights the sum over irreducible momenta is the sum over the zone; refuted even for symmetric data, because G(k+q) at fixed k is not symmetric in q (finding; the main program unfolds to the full zone instead). Finding: the shell part of the one-channel routine ignores the weights.", "quantifier": "all meshes, momentum lists, frequency lists, weights and data", "why_tests_cant": "all sizes", "anchors": ["src/dga/four_point.py:schwinger_dyson_full_q", "src/dga/four_point.py:schwinger_dyson_channel_q", "src/dga/four_point.py:schwinger_dyson_vrg_q", "src/dga/four_point.py:schwinger_dyson_q_shell", "src/dga/four_point.py:schwinger_dyson_dc"]}
{"id": "C75", "title": "DGA self-energy of the parallel program", "statement": "The self-energy computed from the ranks results on irreducible momenta (gather, unfold, scatter, Schwinger-Dyson on every rank, reduce, add DMFT difference and Hartree term) is the sequential lattice sum over all momenta of the mesh plus Sigma_DMFT - Sigma_DMFT-SDE + U n/2, whatever the number of ranks and reduction order.", "quantifier": "all meshes, symmetry lists, symmetric data, rank numbers, reduction orders, momenta", "why_tests_cant": "schedules and sizes are unbounded", "anchors": ["src/dga/dga_main.py:main", "src/dga/four_point.py:schwinger_dyson_full_q", "src/dga/mpi_aux.py:MpiDistributor"]}
{"id": "C76", "title": "Self-energy inherits the symmetries", "statement": "If Green function and kernel have a point symmetry of the mesh, so has the lattice self-energy; if both satisfy the conjugation relation between (w,v) and (-w,-v), Sigma(k,-v) is the complex conjugate of Sigma(k,v).", "quantifier": "all meshes, symmetric functions, frequency boxes", "why_tests_cant": "all inputs", "anchors": ["src/dga/four_point.py:schwinger_dyson_kernel_q"]}
{"id": "C77", "title": "Lattice ladder", "statement": "The generalized susceptibility of the lattice ladder solves the Bethe-Salpeter equation with the lattice bubble and the local irreducible vertex at every (q,w), and only that is returned. For the vertex continued by U to the full box, the routine used by the program returns, computing on the core only, the physical susceptibility of the full box and its three-leg vertex (one outside the core); where the ladder diverges (1 = u_r chi) LinAlgError is raised.", "quantifier": "all momenta, bosonic frequencies, core and shell sizes, vertices and non-zero bubbles", "why_tests_cant": "linear algebra of every size", "anchors": ["src/dga/four_point.py:get_gchir_from_gamma_loc_q", "src/dga/four_point.py:get_gchir_aux_from_gammar_q", "src/dga/four_point.py:chi_phys_from_chi_aux_q", "src/dga/four_point.py:vrg_from_gchi_aux", "src/dga/high_level_routines.py:construct_vrg_and_chi_q_urange"]}
{"id": "C78", "title": "Ladder vertex from its components", "statement": "The components stored for the Eliashberg step reassemble to the full ladder vertex of the box. Intended for all vertices; holds for local vertices symmetric in the two fermionic frequencies; for others the exact deviation is given (finding: the same three-leg vertex is used on both sides).", "quantifier": "all core and shell sizes, vertices, bubbles", "why_tests_cant": "linear algebra of every size", "anchors": ["src/dga/four_point.py:ladder_vertex_from_chi_aux_components", "src/dga/four_point.py:build_vertex_fq"]}
{"id": "C79", "title": "Double-counting kernel", "statement": "construct_dc_kernel returns, on the core, u_r sum_v2 F(v,v2,w) chi0(q,w,v2), summed over the full box, with F the local magnetic full vertex on the full box.", "quantifier": "all box sizes, vertices, bubbles", "why_tests_cant": "linear algebra of every size", "anchors": ["src/dga/high_level_routines.py:construct_dc_kernel", "src/dga/four_point.py:get_kernel_dc"]}
{"id": "C80", "title": "DGA reproduces DMFT in the local limit", "statement": "If the lattice bubble does not depend on q and no lambda correction is applied, the self-energy assembled by the program from ladder, double counting, DMFT and local Schwinger-Dyson self-energy is the DMFT self-energy at every momentum and frequency, for every Green function.", "quantifier": "all meshes, box sizes, vertices, bubbles without divergence, Green functions, rank numbers and reduction orders", "why_tests_cant": "all inputs and sizes", "anchors": ["src/dga/dga_main.py:main", "src/dga/four_point.py:schwinger_dyson_full_q", "src/dga/high_level_routines.py:construct_dc_kernel", "src/dga/local_four_point.py:schwinger_dyson_full"]}
{"id": "C81", "title": "Asymptotic corrections of the lattice ladder", "statement": "Adding the asymptotic part of the bubble shifts the physical susceptibility by the difference of the two bubbles and rescales the three-leg vertex so that the Schwinger-Dyson kernel is unchanged. The shell-corrected lambda, susceptibility and three-leg vertex of the core equal those of the Bethe-Salpeter equation on the full box with the vertex extended by u_r.", "quantifier": "all vertices, bubbles, core and shell sizes, both channels, all momenta and frequencies with the stated denominators non-zero", "why_tests_cant": "an identity between array expressions over an infinite set of inputs", "anchors": ["src/dga/four_point.py: chi_phys_asympt_q, vrg_from_gchi_aux_asympt, lam_from_chir_q, get_lam_tilde, get_chir_shell, chir_tilde, vrg_q_tilde, get_kernel"]}
{"id": "C82", "title": "Optical bubble", "statement": "The bubble of the current-current correlation function is -2/(beta N_k) sum_k a(k) b(k) sum_v G(k,v) G(k,v-w) over the requested fermionic window, in every frequency convention; the array the program saves holds this value at all bosonic frequencies, negative ones included, for real velocities and a Green function with G(-v)=G(v)*. It is symmetric in the two directions, real at w=0, zero when a symmetry of G makes a*b odd, and equal for directions related by a symmetry of G. Intended: a Green function box that does not cover the shifted window is an error. Holds for N < n+w <= N+n (ValueError); refuted beyond: for w > N+n the slice wraps around and a wrong number is returned.", "quantifier": "all meshes, Green functions, velocities, window sizes and bosonic frequencies", "why_tests_cant": "all inputs and sizes", "anchors": ["src/dga/optics.py:get_chijj_bubble", "src/dga/optics.py:vec_get_chijj_bubble", "src/dga/dga_main.py:main"]}
{"id": "C83", "title": "Optical vertex contribution", "statement": "The vertex contribution is -2/(beta^2 N_q N_k) sum_{q,k,w',v} a(k) b(k+q) G(k,v-w) G(k,v) G(k+q,v-w') G(k+q,v-w'-w) F(q,w',w,v); cutting the Green function first loses nothing; the program's result does not depend on the number of ranks or the reduction order and has the formula's value at all bosonic frequencies when F has the conjugation symmetry. A momentum-independent vertex contributes nothing when the current is odd under a symmetry of G. Intended: the value is the documented formula with a(k-q) b(k). Refuted as written: the code exchanges a and b and reverses q (equal for equal directions and F(q)=F(-q)).", "quantifier": "all meshes, momentum lists, boxes, vertices, Green functions, rank numbers, reduction orders", "why_tests_cant": "all inputs, sizes and schedules", "anchors": ["src/dga/optics.py:get_chijj_vertex", "src/dga/optics.py:vec_get_chijj_vert", "src/dga/dga_main.py:main"]}
{"id": "C84", "title": "Pairing vertex end to end", "statement": "After the ranks have written the ladder components of their irreducible momenta, loading and assembling them gives, at every momentum of the full zone, the singlet vertex as the Hermitian part in (v,v') of -(3/2 F_m - 1/2 F_d)(k, v-v'; v, -v'-1) and the triplet vertex as that of -(1/2 F_m + 1/2 F_d), with F_r the ladder vertices f1 + (1 -+ U chi_r) f2; nothing is lost if the crossed vertex is Hermitian already.", "quantifier": "all meshes, symmetry lists, symmetric vertices, susceptibilities, boxes, rank numbers and interleavings of the writes", "why_tests_cant": "schedules, sizes and data are unbounded", "anchors": ["src/dga/pairing_vertex.py:build_pairing_vertex", "src/dga/pairing_vertex.py:write_pairing_vertex_components", "src/dga/pairing_vertex.py:load_pairing_vertex_from_rank_files", "src/dga/brillouin_zone.py:KGrid.map_irrk2fbz"]}
{"id": "C85", "title": "Optics vertex end to end", "statement": "Intended: the assembled optics vertex is -1/2 F_d - 3/2 F_m at (q,w';v,v-w) for every bosonic frequency w' of the box. Holds for w' >= 0 at every momentum of the full zone, any number of ranks and any interleaving; refuted for w' < 0: those rows are zero, because the sign in the group names of the files is dropped on reading.", "quantifier": "all meshes, symmetry lists, symmetric vertices, susceptibilities, boxes, rank numbers and interleavings", "why_tests_cant": "schedules, sizes and data are unbounded", "anchors": ["src/dga/optics.py:build_vertex_for_optical_conductivity", "src/dga/optics.py:load_optics_vertex_from_rank_files", "src/dga/optics.py:write_optics_vertex_components"]}
{"id": "C86", "title": "Optical conductivity on the real axis", "statement": "Intended: the bubble is chi_jj(w) = -2/N_k sum_k a b int dv nf(v) A(k,v) [G(k,v+w) + conj G(k,v-w)] on the mesh points 0 < w below w_max_bub, and sigma(w) = Im chi_jj(w)/w, interpolated to w=0. Holds on uniform symmetric meshes with an odd number of points (trapezoidal rule over |v| <= (M-m)d), end to end through the interpolation; the conductivity is then non-negative for non-negative spectra inside the window; w_max_bub outside the mesh is an AssertionError. Refuted otherwise: frequencies are shifted by mesh index, so meshes that are not uniform (the default 'tan' mesh) give a wrong value, and every uniform symmetric mesh with an even number of points raises ValueError.", "quantifier": "all meshes, Green functions, velocities, temperatures and cut-offs", "why_tests_cant": "all inputs and sizes", "anchors": ["src/dga/optics.py:vec_get_chijj_bubble_realf", "src/dga/optics.py:get_sigma_from_chijj_realf", "src/dga/optics.py:vec_get_sigma_bub_realf", "src/dga/optics.py:fermi_function"]}
{"id": "C87", "title": "Real-frequency meshes", "statement": "For every supported kind ('lorentzian', 'hyperbolic', 'linear', 'tan'), at least two points, wmin < wmax and 0 < cut < 1/2 the mesh has the requested number of points, starts at wmin, ends at wmax, increases strictly and is symmetric about its centre; with a symmetric window and an odd number of points the middle point is exactly zero. A Lorentzian mesh without cut is an AssertionError, any other kind a ValueError; the default 'tan' mesh is not uniform.", "quantifier": "all kinds, windows, sizes and cuts", "why_tests_cant": "all reals; monotonicity of tan, sinh, ... cannot be sampled", "anchors": ["src/dga/analytic_continuation.py:get_w_mesh", "src/dga/analytic_continuation.py:lorentzian_mesh", "src/dga/analytic_continuation.py:hyperbolic_mesh", "src/dga/analytic_continuation.py:linear_mesh", "src/dga/analytic_continuation.py:tan_mesh"]}
{"id": "C88", "title": "Spectral representation, Kramers-Kronig transformation, filling", "statement": "Intended: transform_from_real_to_imag is int dx A(x)/(iv-x) (fermionic) or int dx x^2/(x^2+v^2) A(x), continued to 1 at v=0 (bosonic), by the trapezoidal rule, with the analytic consequences (conjugation, sign, bounds and tails, particle-hole symmetry; real, even, decreasing); kkt gives Im G = -pi A and Re G by the sum over the other cells, the cells cover the mesh, and transforming its result gives back the spectral integral; check_filling is twice the integral below zero. Holds for the transform, for kkt of kind 'general' and for the consequences; unknown kinds raise. Refuted: the default kind of get_backtransform_kernel is unknown to it; the kkt kinds 'symmetric' and 'antisymmetric' are exchanged (odd and even continuation); check_filling misses the interval next to zero, so half-filled symmetric spectra give less than their norm.", "quantifier": "all meshes, spectra, frequencies and kinds", "why_tests_cant": "all inputs and sizes", "anchors": ["src/dga/analytic_continuation.py:get_backtransform_kernel", "src/dga/analytic_continuation.py:transform_from_real_to_imag", "src/dga/analytic_continuation.py:kkt", "src/dga/analytic_continuation.py:check_filling"]}
{"id": "C89", "title": "Polynomial fits on the Matsubara axis", "statement": "Intended: get_gamma_bandshift_z returns (scattering rate, band shift, quasiparticle weight) = (-Im S(0), Re S(0), 1/(1 - dIm S/dv(0)) confined to (0,1]), extrapolated from the first n_fit frequencies by a polynomial of degree `order`. Holds: the weight always lies in (0,1]; the result exists and depends only on the first n_fit points; rate and band shift are exact for data on a polynomial of that degree, as is the weight if Im S(v)/v lies on one; extract_coeff_on_ind treats index by index; poly_fit gives at every momentum of the full zone the fit at that momentum; value and slope extrapolation is exact; invalid input raises. Refuted: with a finite scattering rate the weight is too small (the code extrapolates Im S(v)/v, which diverges); poly_fit raises for a single momentum or a single positive frequency.", "quantifier": "all data, frequencies, orders, windows and grids", "why_tests_cant": "all inputs and sizes", "anchors": ["src/dga/analytic_continuation.py:get_gamma_bandshift_z", "src/dga/analytic_continuation.py:poly_extrap_0", "src/dga/analytic_continuation.py:poly_der_extrap_0", "src/dga/analytic_continuation.py:extract_coefficient_imaxis", "src/dga/analytic_continuation.py:extract_coeff_on_ind", "src/dga/dga_io.py:poly_fit"]}
{"id": "C90", "title": "MaxEnt controller", "statement": "Intended: settings are taken from keyword arguments, else the configuration, else the defaults; unsupported kernels are refused; bosonic continuations use no negative real frequency and no blurring unless forced; blurring is used iff the blur width is nonzero; the fitted data are the first n_fit nonnegative Matsubara frequencies (fewer if fewer exist), each paired with its frequency; the default model is flat with the norm of the spectrum; each momentum is continued independently, a failure gives a zero row for that momentum only, and the number of MPI ranks does not matter. Holds, with mpi_ana_cont needing no idle rank and a success on every rank (or none, or a bosonic kernel). Refuted: the bosonic model is normalised with the value at the most negative instead of zero frequency; a rank all of whose (fermionic) continuations fail makes the gather erroneous; with more ranks than irreducible momenta the root raises; the mesh of MaxEntConfig used for local continuations ignores mesh_type, wmax, nwr and cut of the configuration.", "quantifier": "all settings, matrices, solvers, numbers of ranks and patterns of failures", "why_tests_cant": "all inputs, schedules and failures", "anchors": ["src/dga/analytic_continuation.py:MaxEnt", "src/dga/analytic_continuation.py:mpi_ana_cont", "src/dga/config.py:MaxEntConfig", "src/dga/mpi_aux.py:MpiDistributor"]}
{"id": "C91", "title": "H(k) file round trip", "statement": "Intended: a Hamiltonian H(k) written by write_hk_wannier90 / save_hk and read by read_hk_w2k is recovered: the momenta as printed, every matrix element to twelve decimals at the position [k, band, band] of its momentum (C order of the mesh); with spin_sym=False orbital s*nb+b is band b of spin s and an odd number of orbitals is refused; comments in the header, the old four-number header and announced numbers of momenta other than those in the file are handled (too few momenta: ValueError; too many: truncated); writing more mesh points than there are matrices is refused. Holds for the values. Refuted: the array has the documented three axes only if there is more than one momentum and more than one band (squeeze); a version-2 header needs np.int, which numpy >= 1.24 does not have.", "quantifier": "all Hamiltonians, meshes, numbers of bands, number formats and header variants", "why_tests_cant": "all arrays and files", "anchors": ["src/dga/wannier.py:write_hk_wannier90", "src/dga/wannier.py:read_hk_w2k", "src/dga/wannier.py:save_hk"]}
{"id": "C92", "title": "Ornstein-Zernicke fit", "statement": "Intended: the Ornstein-Zernicke function a/(xi^-2+|q-(pi,pi,0)|^2) on a momentum mesh has one value per mesh point in C order, is positive, is largest (a xi^2) exactly at (pi,pi,0), falls to half its maximum at the distance 1/|xi|, has the lattice symmetries, and determines a and |xi|, so an exact fit recovers them; the fit sees the zero-frequency slice, starts from (largest value, 2) and any failure is reported as (-1,-1). Holds in the plane. Refuted for the third direction: the distance in qz is not periodic, so the planes iz and nz-iz always differ although they are equivalent.", "quantifier": "all meshes, amplitudes a>0, correlation lengths xi<>0, susceptibilities and fitting routines", "why_tests_cant": "real analysis over all meshes and parameters", "anchors": ["src/dga/ornstein_zernicke_function.py:oz_spin_w0", "src/dga/ornstein_zernicke_function.py:fit_oz_spin", "src/dga/dga_io.py:fit_and_plot_oz"]}
{"id": "C93", "title": "Input files: two-particle Green's function and one-particle data", "statement": "Intended: the two-particle input is read completely and at the right frequencies: read_g2_full returns every stored bosonic frequency in order, transposed back to [w,v,v'] (what symmetrize.py writes for x[v,v',w] is read as x), get_niw half their number, read_g2_iw the matrices at the requested Matsubara indices (KeyError for absent ones), read_g2 the same as read_g2_full when told the file's sizes; the search ends for every file. The one-particle loader gives spin-averaged G and Sigma of the first band and the configured filling, or the occupation when that is 0; get_chi subtracts the disconnected part at w=0 only and refuses even grids. build_g2_obj gives the input at the same frequencies in the core box, symmetrised in v,v' on request, and the dictionary the program saves reproduces box and objects when fed back. Refuted: a missing group silently truncates and mislabels the frequencies; read_g2 with fewer frequencies returns the lowest ones instead of those around zero; read_g2_full without channel returns an empty array; the older loader adds bands and takes the filling 0 literally, and so does get_chi; the magnetic vertex is not checked against the box.", "quantifier": "all files, atoms, channels, band groups, sizes, boxes, fields of numbers", "why_tests_cant": "all file contents and sizes", "anchors": ["src/dga/w2dyn_aux_dga.py:W2dynG4iwFile", "src/dga/w2dyn_aux_dga.py:W2dynFile", "src/dga/dga_io.py:load_1p_data_w2dyn", "src/dga/dga_io.py:build_g2_obj", "src/dga/dga_io.py:create_dmft_ddict", "src/dga/symmetrize.py:read_and_add"]}
{"id": "C94", "title": "Averaged Pade continuation and PadeSolver", "statement": "Intended: pade() continues the data reliably: it tries 321 choices (even N, 40..80, M from 50 to 98 points, one to three mirrored), points and values stay paired under mirroring, only continuations with Im <= 0 everywhere are used and so the returned average has Im <= 0, exact data of a physical rational function with real coefficients and at most 20 poles at 97 or more points of the upper half plane are continued exactly, acPade recovers rational functions with at most N/2 poles from N points and stops for odd N, unknown methods and Thiele with N points missing; the weights are the summed distances, at most 51% of the continuations below 99% of the mean distance enter, no physical one stops the program and a single one is returned; PadeSolver returns -Im/pi and its check reproduces the data at the interpolation points; the Jacobian of the non-linear fit is the derivative and the fit starts at 1/z. Refuted: with exactly two different physical continuations both are rejected and the result is nan.", "quantifier": "all point sets, data, output points, exact least-squares solvers, orders of equal distances, coefficient vectors", "why_tests_cant": "all data sets and numbers of accepted continuations", "anchors": ["src/dga/pade_aux.py:pade", "src/dga/pade_aux.py:acPade", "src/dga/pade_aux.py:pick_points", "src/dga/pade_aux.py:padeNonlinear", "src/dga/pade_aux.py:PadeSolver"]}
{"id": "C95", "title": "The local part of a run", "statement": "Intended: from the measured two-particle Green's functions of the impurity and the local Green's function, local_sde_from_g2 returns the irreducible vertices (over beta^2), the physical susceptibilities, the three-leg vertices and the local self-energy of the impurity problem: if in each channel the susceptibility solves the Bethe-Salpeter equation with a vertex equal to Gamma on the core and to the bare interaction on the shell, exactly this Gamma, 1/beta^2 sum chi, vertices satisfying the definition of the three-leg vertex on the whole box (continued by 1), and the self-energy U n/2 - U/beta^2 sum (F_d - F_m)/2 G G G of the equation of motion; otherwise LinAlgError. Holds: the run succeeds exactly if the ladders it inverts are regular. Refuted for the variants with asymptotic susceptibility: the one starting from chi passes U as an axis (TypeError for float U, wrong axis or no result for integer U other than 2 and -1), the lattice one ends with AttributeError.", "quantifier": "all core and shell sizes, temperatures, interactions, Green's functions, vertices and bosonic boxes", "why_tests_cant": "all inputs and sizes", "anchors": ["src/dga/high_level_routines.py:local_sde_from_g2", "src/dga/local_four_point.py:get_vrg_and_chir_tilde_from_chir_uasympt", "src/dga/four_point.py:get_vrg_and_chir_lad_from_gammar_uasympt_q"]}
{"id": "C96", "title": "Output folders of an MPI run", "statement": "Intended: create_folders gives every rank of a job the same output, Eliashberg and optics folders, which are new (never those of an earlier run) and exist when the first rank goes on; the plots and polynomial-fit folders of rank 0 are new and exist; nothing else is created and nothing removed; no rank raises, no schedule blocks or goes on for ever; the name is the first free one uniquify finds. Holds for every number of ranks and every interleaving of their file system accesses, and for rank 0 also for dga_io.set_output_path of the analytic continuation. Refuted: the polynomial-fit folder and the folders of the analytic continuation are chosen by each rank for itself, so another rank can end with a folder that differs from that of rank 0 and does not exist; two runs started at the same time can silently share one folder (or the second one stops with FileExistsError).", "quantifier": "all configurations, initial file systems, numbers of ranks and interleavings", "why_tests_cant": "race conditions: all schedules of all numbers of ranks", "anchors": ["src/dga/config.py:OutputConfig.set_output_path", "src/dga/config.py:DgaConfig.create_folders", "src/dga/config.py:DgaConfig.create_plotting_folder", "src/dga/config.py:DgaConfig.create_poly_fit_folder", "src/dga/config.py:DgaConfig.create_logger", "src/dga/config.py:get_dga_output_folder_name", "src/dga/dga_io.py:set_output_path", "src/dga/util.py:uniquify"]}
{"id": "C97", "title": "Evaluation of the configuration file", "statement": "Intended: every documented setting takes the value given in its section of the file, and its default if the file does not give it; a file that cannot be honoured is refused. Holds: exactly the acceptable files (sections are mappings, lattice given and complete, box sizes integers, not more processes than irreducible k points) are accepted; settings of box_sizes, lattice, pairing, optics and debug come from their section only; those of poly_fitting, dmft_input, output and dga share one name space, in which the section read last wins; derived settings (niv_asympt, nq, symmetries, do_poly_fitting) follow their rule; every MPI rank gets the same configuration; a section object written back with as_dict and read again is unchanged. Refuted: unknown (misspelt) keys are silently accepted and the setting that was meant keeps its default; the box section of the default configuration is never read; gap0_sing/gap0_trip of the pairing section are overwritten; an empty section is accepted for pairing, optics, debug and box_sizes but raises TypeError for the others.", "quantifier": "all configuration files (arbitrary YAML values), numbers of processes, ranks", "why_tests_cant": "the space of configuration files is unbounded: every section, key, value and combination", "anchors": ["src/dga/config.py:DgaConfig", "src/dga/config.py:BoxSizes", "src/dga/config.py:LatticeConfig", "src/dga/config.py:EliashbergConfig", "src/dga/config.py:OpticsConfig", "src/dga/config.py:DebugConfig", "src/dga/config.py:ConfigBase", "src/dga/config.py:parse_config_file", "src/dga/config.py:get_default_config_dict"]}
{"id": "C98", "title": "Analytic-continuation run", "statement": "Intended: a run saves, for every quantity requested in the configuration (self-energy, Green's function, density and magnetic susceptibility), the continuation of its Matsubara data at every momentum; the number of MPI ranks, the other sections and later failures do not matter. Holds: whatever a run saves, whether it ends normally or not and on any number of ranks, is at every momentum the continued data of a symmetry-equivalent momentum (of the momentum itself for symmetric data), the self-energy without its Hartree term, which is added back (a momentum whose continuation fails gets zeros plus the Hartree term); runs that end normally have saved exactly the requested quantities, with values independent of the number of ranks and of the sections of the other quantities; files saved before a failure stay. Refuted: the tasks of all quantities are counted on the q grid, so with a q grid that has another number of irreducible points than the k grid a run that is to continue the self-energy ends with an error and saves nothing.", "quantifier": "all configurations, grids, symmetries, Matsubara data, solvers, numbers of ranks and failures after a save", "why_tests_cant": "depends on the partition among ranks, on every grid pair and on all failure points", "anchors": ["src/dga/dga_max_ent.py:main", "src/dga/analytic_continuation.py:mpi_ana_cont", "src/dga/analytic_continuation.py:MaxEnt", "src/dga/brillouin_zone.py:KGrid"]}
{"id": "C99", "title": "Log file of a run", "statement": "The log file is, at every moment of a run and for every interleaving of the MPI ranks, the header followed by the texts of the calls rank 0 has made since it constructed the logger, in order; if the run is interrupted only the last text may be cut off. Calls of other ranks never change the file, never wait for it and never raise; on rank 0 a call raises only for a message that is no string or an object without size, and then adds nothing. If messages contain no newline there is one line per call. With a clock that does not go back, the total times in the file do not decrease, task times are not negative and add up to at most the total time; times are printed as [d day(s), ]h:mm:ss, to the nearest second, and can be read back; memory is printed to the nearest kilobyte. Constructing a logger again empties the file.", "quantifier": "all sequences of logger calls on all ranks, all interleavings and interruption points, all clock readings and messages", "why_tests_cant": "quantifies over all interleavings, crash points and clock readings", "anchors": ["src/dga/loggers.py:MpiLogger", "src/dga/loggers.py:RealTime"]}
{"id": "C100", "title": "Data files of a run", "statement": "Intended: data saved under a name in an output folder are loaded back as they were saved, until they are saved again or cleaned, whatever else is saved, loaded or cleaned; an interrupted save does not destroy older data. Holds: after any history of saves, loads, cleanings and interrupted saves, through any number of configuration objects, a load returns the value of the last save to the file of that name in that folder (however the folder is spelled), raises FileNotFoundError after a cleaning, and is unaffected by operations on other names or folders; saving into an existing folder and cleaning never raise. Refuted: an array with exactly one entry comes back as the bare entry, without its axes; after an interrupted save neither the old nor the new data can be loaded.", "quantifier": "all histories, names, folders, spellings of a folder and saved values", "why_tests_cant": "histories and values are unbounded", "anchors": ["src/dga/config.py:OutputConfig.save_data", "src/dga/config.py:OutputConfig.load_data", "src/dga/config.py:OutputConfig.clean_data"]}
{"id": "C101", "title": "Files and MPI operations of a whole run", "statement": "Intended: a DGA run on any number of ranks finishes, no rank ever reads a file or hdf5 group that is not there yet or no longer there, and the output folder ends up with the requested files. Holds, for settings that fit together (do_eliash only with do_pairing_vertex, an optics section only with do_bubble), in every interleaving of the ranks that MPI allows: no rank raises because of a file; while a rank has not ended some rank can go on; every run ends after a bounded number of steps; at the end the output folder has exactly the files written under the settings minus the pairing and optics vertices that are not to be kept, and the files of the ranks are there (with exactly the groups of the requested quantities) if and only if they are to be kept. Refuted: with do_eliash and without do_pairing_vertex, or with an optics section and without do_bubble (as in the default configuration), no rank ever ends: root raises after the whole calculation and all other ranks wait for it for ever.", "quantifier": "all settings, numbers of ranks and interleavings", "why_tests_cant": "interleavings and numbers of ranks are unbounded", "anchors": ["src/dga/dga_main.py:main", "src/dga/dga_max_ent.py:main", "src/dga/mpi_aux.py:MpiDistributor", "src/dga/pairing_vertex.py:load_pairing_vertex_from_rank_files", "src/dga/optics.py:load_optics_vertex_from_rank_files", "src/dga/four_point.py:build_vertex_fq"]}
{"id": "C102", "title": "Continuation of local Green's functions for a range of blur widths", "statement": "Intended: the continuation of a local Green's function hands the solver, for every blur width, the values at the first n_fit positive Matsubara frequencies with these frequencies, a constant error and a flat model with integral one, stores every result under its own name, and returns the optimal blur width; the filling check gives the number of electrons below zero. Holds if at least n_fit positive frequencies exist: every width gets its problem and its file, or the first failing width raises its error and the files of those before it are there; the mesh is stored and nothing else in the folder changes, so the DMFT and the DGA results do not disturb each other; the optimal width solves fitted curve = a + b/(1+exp(fit position)) and is stored, or 0 is returned if the fit fails; the estimates of n_fit and blur width are as documented; the filling is twice the trapezoidal integral over the negative frequencies. Refuted: with fewer than n_fit positive frequencies (the default n_fit is 3 beta + 10 whatever the data are) the call raises at the first width; the filling misses the interval up to zero and is below one for a flat symmetric spectrum.", "quantifier": "all Green's functions, meshes, lists of blur widths, solvers, fits and folder contents", "why_tests_cant": "data, widths and solver outcomes are unbounded", "anchors": ["src/dga/analytic_continuation.py:check_filling", "src/dga/analytic_continuation.py:max_ent_loc", "src/dga/analytic_continuation.py:max_ent", "src/dga/analytic_continuation.py:max_ent_loc_bw_range", "src/dga/config.py:MaxEntConfig", "src/dga/dga_max_ent.py:main"]}
{"id": "C103", "title": "Data shown over momenta: shifts by pi, planes of constant momentum, Fermi-surface points", "statement": "Intended: data shifted by pi belong, entry by entry, to the shifted momentum axes; a plane of constant momentum is that of the given momentum; the Fermi-surface points are the momenta where the sign changes, and looking for them never stops a run. Holds: on grids with even numbers of momenta every shifted entry is the value of the (periodic) function at the momentum on the shifted axes, which run from -pi; a plane is that of the nearest mesh momentum (the given one if it is on the mesh), wrong shapes or directions are refused; zero crossings are found exactly at the lower ends of the edges with a change of sign (or at zeros), contours at ends of such edges; the check of the DGA Green's function raises neither with nor without Fermi surface if both directions have four or more momenta, and marks only momenta of the first quadrant with a change of sign. Refuted: with odd numbers of momenta the shown values are half a step off; negative momenta give the plane at zero; planes of shifted Green's functions are at momentum plus pi; a change of sign between last and first momentum is not found; without any path get_zero_contour raises; with fewer than four momenta in a direction the run stops before the Green's function is saved.", "quantifier": "all periodic functions, grids, momenta and arrays", "why_tests_cant": "functions, grids and zero lines are unbounded", "anchors": ["src/dga/brillouin_zone.py:shift_mat_by_pi", "src/dga/brillouin_zone.py:find_zeros", "src/dga/brillouin_zone.py:KGrid.get_k_slice", "src/dga/brillouin_zone.py:KGrid.kx_shift", "src/dga/brillouin_zone.py:KGrid.add_q_to_kgrid", "src/dga/brillouin_zone.py:get_extent_pi_shift", "src/dga/plotting.py:get_zero_contour", "src/dga/two_point.py:RealFrequencyGF.get_fs_surface_slice_indices", "src/dga/dga_io.py:default_giwk_checks"]}
{"id": "C104", "title": "The Green's function object stays consistent over its lifetime", "statement": "Intended: whatever sequence of changes of the number of asymptotic frequencies an object goes through, all it reports (full array, momentum average, frequencies, sizes, Fermi-surface map, energies) is about one Green's function on one frequency grid. Holds for non-negative numbers: everything shows Dyson's function of the self-energy on core plus the last number of frequencies; core, chemical potential and filling never change; no call fails; only the last call matters, and the object equals a new one constructed with it; the energies pass their assertions; construction fails, with ValueError, exactly without mu and n or with fewer stored frequencies than the core. Refuted for negative numbers: they are accepted, the array holds the core while frequencies and niv_full shrink, and the Fermi-surface map is read at a negative frequency, with the opposite sign.", "quantifier": "all self-energies, dispersions, construction arguments and histories of set_g_asympt calls", "why_tests_cant": "histories and arrays are unbounded", "anchors": ["src/dga/two_point.py:GreensFunction.__init__", "src/dga/two_point.py:GreensFunction.set_g_asympt", "src/dga/two_point.py:GreensFunction.k_mean", "src/dga/two_point.py:GreensFunction.g_full", "src/dga/two_point.py:GreensFunction.size", "src/dga/two_point.py:GreensFunction.v", "src/dga/two_point.py:GreensFunction.fs", "src/dga/two_point.py:GreensFunction.e_kin"]}
{"id": "C105", "title": "Maximum-entropy spectrum at a given weight of the entropy", "statement": "Intended: at a given alpha the spectrum returned by the maximum-entropy solver is the one that maximises alpha times the entropy relative to the default model minus half the weighted squared misfit, and the entropy, misfit, norm and functional reported with it are its own. Holds: on an increasing mesh with a positive default model, a root of the function handed to the optimizer gives the one and only maximum of that functional over all non-negative spectra (over all real spectra for off-diagonal elements) for the kernel rebuilt from the kept singular values; there is at most one root; the matrix handed to the optimizer is the Jacobian and invertible everywhere; the mesh weights are those of the trapezoid rule, positive and adding up to the length of the mesh; the spectrum is positive and fits no worse than the default model; smaller alpha never fits worse; entropy <= 0 <= misfit as reported. For the full kernel the shortfall is bounded by the dropped part. Refuted: one significant singular value is always dropped (the index of the last value above the threshold is used as their number), so data differing along that direction give the same spectrum and the reported functional is not maximal.", "quantifier": "all meshes, kernels, data, errors, default models, alphas and competing spectra of any size", "why_tests_cant": "An optimum has to be compared with every spectrum, and the Jacobian is a limit; tests can only compare a few spectra.", "anchors": ["src/ana_cont/solvers.py: MaxentSolverSVD.__init__, compute_f_J_diag, compute_f_J_offdiag, singular_to_realspace_*, chi2, entropy_pos, entropy_posneg, maxent_optimization"]}
{"id": "C106", "title": "Damped Newton root finder of the maximum-entropy solver", "statement": "Intended: the root finder returns a root of the function it is given or raises. Holds: every call ends, with a result exactly if a step becomes smaller than 1e-4 in every component within the permitted number of iterations; each step goes along the Newton increment by a positive fraction of it and changes no sizeable component by more than its own size; the result is a full Newton step from the previous proposal and satisfies the linearised equation there; started at a root it returns that root; for the maximum-entropy functions the Jacobian is always invertible. Refuted: when the pseudo-inverse cannot be computed the step is set to zero, which passes for convergence, so an arbitrary start is returned as the solution; with no variables kept (a single significant singular value) it raises a ValueError from taking the maximum of nothing.", "quantifier": "all functions, starts, sizes, iteration limits and behaviours of the linear algebra", "why_tests_cant": "Iteration histories are unbounded and the failing branches depend on the linear algebra library.", "anchors": ["src/ana_cont/solvers.py: NewtonOptimizer.__call__, NewtonOptimizer.iteration_function"]}
{"id": "C107", "title": "Choice of the weight of the entropy", "statement": "Intended: the search over the weight ends and returns the optimization at the weight it selects. Holds: with a divisor above 1 the kink search ends, trying the start divided by powers of the divisor, the first always and then while not below the end; what is recorded are the successful optimizations in order, each started from the previous success, with weights, misfits and results in step; the result is one more optimization at ten to the power c - position / d started from the recorded result nearest on the logarithmic scale, or the last record when the fit raises ValueError; a falling fit is refused; along the records the weight falls strictly and neither misfit nor entropy grows; Bryan's choice is a convex combination of the spectra at 500 / 1.1^i and stops only when the last sample is less than a hundredth as probable as the best; only four choices are accepted. Refuted: with a divisor of at most 1 the kink search never ends; the historic search never ends when the misfit stays above the number of data; Bryan's choice never ends for a constant probability; when all optimizations fail and the fit raises ValueError the caller sees an IndexError; the historic search overwrites the singular-space vector of the last but one recorded result while its spectrum is kept.", "quantifier": "all optimizers, fits, starts, ends, divisors and numbers of rounds", "why_tests_cant": "Search histories are unbounded and non-termination cannot be observed by a test.", "anchors": ["src/ana_cont/solvers.py: MaxentSolverSVD.solve_chi2kink, solve_historic, solve_bryan, solve"]}
{"id": "C108", "title": "Kernels, blurring and errors of the analytic continuation", "statement": "Intended: every kernel matrix relates spectrum and data as its name says, blurring averages kernel and spectrum alike, and the misfit is the one of the given errors. Holds: the fermionic frequency kernel is 1/(i nu - om); the fermionic time kernel is exp(-tau om)/(1+exp(-om)) up to a relative error below 1e-8, lies in (0,1], and its Matsubara transform is minus the frequency kernel; the bosonic frequency kernel is om^2/(om^2+nu^2), in [0,1], 1 at zero frequency; the bosonic time kernel is positive, symmetric and even, transforms into the bosonic frequency kernel and tends to the 1 of the first column; the particle-hole symmetric kernels are sums over om and -om; blurring uses one set of 201 positive symmetric weights independent of the width for kernel and spectrum; the misfit is the sum of squared moduli over squared deviations, or the quadratic form of the inverse covariance whatever eigenvectors are found; unknown kinds and missing arguments are refused. Refuted: the first column of the bosonic time kernel is 1 even if the first frequency is not zero; repeated zeros in the axes leave entries that are no numbers or raise IndexError; with a width of zero or below, or a kernel that cannot be blurred, blurring the spectrum raises AttributeError; neither or both kinds of errors end in AttributeError.", "quantifier": "all axes, frequencies, times, widths, data, errors, covariance matrices and spectra of any size", "why_tests_cant": "The relations are integrals and limits over all times and frequencies, and sums over matrices of any size.", "anchors": ["src/ana_cont/kernels.py: Kernel.__init__, kernel_matrix, preblur, convolve_kernel, blur, real_matrix, rotate_to_cov_eb", "src/ana_cont/solvers.py: MaxentSolverSVD.__init__"]}
{"id": "C109", "title": "Kramers-Kronig transformation", "statement": "Intended: from a spectrum on a mesh the full Green's function is obtained, with the spectrum continued evenly for the symmetric kinds and oddly for the antisymmetric ones. Holds: the imaginary part is minus pi times the spectrum; for the general kinds the real part is the trapezoid sum of A(x)/(w-x) without the point itself; every kind is linear in the spectrum; other kinds are refused. Refuted: the formulas for the symmetric and the antisymmetric kinds are exchanged (the symmetric kinds continue oddly, the antisymmetric ones evenly), so that for positive spectra the real part is always too small, or too large; a mesh with opposite frequencies gives no numbers after a mere warning.", "quantifier": "all meshes, spectra and kinds, of any size", "why_tests_cant": "The real part is a sum over the whole mesh, and the exchange shows for every positive spectrum.", "anchors": ["src/ana_cont/continuation.py: GreensFunction.__init__, GreensFunction.kkt"]}
{"id": "C110", "title": "Stating and solving a continuation problem", "statement": "Intended: data and axes given in physical units are solved in the solver's units and the result comes back in physical units. Holds: for the fermionic and bosonic time modes the returned spectrum, with the kernel at the given inverse temperature on the given axis, reproduces exactly what the solver's spectrum gives in its units; the frequency modes hand everything through; unknown modes and axes with imaginary parts are refused; partial_solution rescales as solve does. Refuted: the particle-hole symmetric time mode is not scaled back and gives 1/beta of the fit; the default model is not rescaled, so a solver that returns the model gives the user beta times the model; all results but the chosen one stay in the solver's units; the particle-hole symmetric frequency mode looks at the axis instead of the data and turns imaginary data into zeros; method 'pade' ends in AttributeError; partial_solution returns a ValueError instead of raising it.", "quantifier": "all modes, axes, data, inverse temperatures, methods and solver outcomes", "why_tests_cant": "The exact agreement of the two units is an identity over all meshes, spectra and temperatures.", "anchors": ["src/ana_cont/continuation.py: AnalyticContinuationProblem.__init__, solve, partial_solution"]}
{"id": "C111", "title": "Paths through the Brillouin zone: names, labels, ticks, values, Fermi crossings", "statement": "Intended: a path string gives its corners, the figure carries each corner's label at its place, the values shown are those at the momenta of the path, and the crossings with the Fermi surface are found on every segment. Holds: names joined by the delimiter are the corners; a corner is a known name or three numbers; one label and one tick per corner, ticks from 0 to 1 in order; on isotropic meshes the values along the path are the function at the momenta reported; on every segment the crossing is the first of the points looked at that is closest to the Fermi points, found exactly if there are Fermi points and every segment has points (the first more than one), ValueError otherwise; all points but the last are looked at once. Refuted: inner ticks are one point before their corner; one number stands for three coordinates; with '-' as delimiter no coordinate can be negative at the start of a corner; the last point of a path is never a crossing; beyond pi crossings are missed if the Fermi points are on the axes from -pi to pi, as in the scripts.", "quantifier": "all path strings, meshes, functions, Fermi points", "why_tests_cant": "Strings, meshes and sets of Fermi points are unbounded.", "anchors": ["src/dga/brillouin_zone.py:KPath", "src/dga/brillouin_zone.py:get_k_point_from_string", "src/postproc/util.py:find_fermi_crossing"]}
{"id": "C112", "title": "Analytic continuation: Bayesian quantities and the 'classic' choice of alpha", "statement": "Intended: the Bayesian quantities are those of the literature and the classic choice ends at the weight where the trace equals minus twice the weight times the entropy. Holds: the curvature is the exact second-order part of the misfit; the matrix is that curvature in units of the curvature of the entropy, for both kinds of problems; the trace is that of L (alpha + L)^-1, non-negative, below the number of mesh points and at most the number of data; good data are non-negative and zero only at the default model; the probability is alpha e^Q times the square root of the product of alpha/(alpha+lambda), so at most alpha e^Q; nothing depends on the starting point; the weights tried, the prediction and the result of the classic search, whose criterion is 1 if the root search finds a root; Bryan's average is positive; without eigenvalues the diagonal never lowers the trace. Refuted: the search always ends (not if the criterion stays below 1, not for data that the default model reproduces); the criterion marks the maximum of the probability; a record is overwritten; Bryan's choice fails for off-diagonal elements.", "quantifier": "all problems, data, weights, eigenvalue routines, optimizers", "why_tests_cant": "Matrices and searches of any size; derivatives and traces are not finitely testable.", "anchors": ["src/ana_cont/solvers.py:MaxentSolverSVD.bayes_conv", "src/ana_cont/solvers.py:MaxentSolverSVD.posterior_probability", "src/ana_cont/solvers.py:MaxentSolverSVD.solve_classic"]}
{"id": "C113", "title": "Command-line tools", "statement": "Intended: a comparison in a test decides equality up to the tolerance; dga_lint, dga_unit_test, dga_test end normally exactly if all runs succeed; dga_dc provides the default configuration without destroying anything; the options name folder and file. Holds: a comparison passes exactly if the sizes fit and all entries are numbers within atol + rtol*|second|, else ValueError; the tools run the listed commands in order in the project root, up to the first that writes to stderr (exit 1) or cannot be started; test files made of such comparisons: dga_unit_test ends normally exactly if all pass outside the MPI test; dga_dc on success copies the template and changes nothing else, on failure changes no file; options in any order, the last value counts. Refuted: order, shape and empty arrays in comparisons; return codes, stdout (where pylint reports) and the whole MPI test do not matter, not all modules and test files are covered, a warning on stderr counts as failure; dga_dc replaces an edited configuration; a folder without final slash, an option without value.", "quantifier": "all environments, outcomes of sub-processes, file systems, arrays, argument lists", "why_tests_cant": "Environments, histories of sub-processes and file systems are unbounded; the test command cannot test itself.", "anchors": ["src/cli/dga_cli_testing.py:main", "src/test_util/util_for_testing.py:test_array", "src/cli/dga_config_generator.py:main", "src/cli/sym1b.py:create_dga_argparser", "src/dga/config.py:create_dga_argparser"]}
{"id": "C114", "title": "Analysis of a continued momentum-dependent self-energy", "statement": "Intended: gwk_cont.npy is the Green function of the self-energy at the chemical potential with the right filling, mu_dga.txt has this mu and the one without self-energy; the figure shows spectral function, Fermi line and cuts at their momenta. Holds: entries of imaginary part within the cut-off are moved to -i*cut-off, others kept; of a causal self-energy the result is damped; the Green function is the inverse of w+mu-e-S, its spectral function a Lorentzian; the filling is the trapezoid sum of the mean spectral function at w<=0, bounded, unchanged by a common shift of band and mu; the objective is (2 filling-n)^2 and a minimum with reachable n has filling n; both numbers and the array saved are these; the mask is 1 exactly where e+Re S-mu<=w; the cuts belong to the momenta of the path; the figure is drawn if Re(1/G) changes sign between neighbours. Refuted: a self-energy with positive imaginary part stays so; without self-energy the filling is always 0, so mu_lda is the start value; momenta of the axis, map and line exchanged, the plane is not kz=0; without Fermi line or with different nkx, nky the figure raises after saving.", "quantifier": "all self-energies, bands, meshes, lattices, minimizers and contour functions", "why_tests_cant": "Continuous functions, frequency meshes and lattices are unbounded; the script is run by hand on files.", "anchors": ["src/postproc/real_frequency_two_point.py:get_giwk", "src/postproc/real_frequency_two_point.py:get_filling", "src/postproc/real_frequency_two_point.py:adjust_mu", "src/postproc/plot_siwk_cont.py:main"]}
{"id": "C115", "title": "Maps in the figures", "statement": "Intended: the two-dimensional figures show every value at its momentum, with colours centred at zero; the dispersion figure shows the maxima of w Re chi. Holds: colours are monotone, below 1/2 exactly for negative numbers, linear on both sides; plot_kx_ky shows (i,j) at (kx_i,ky_j); the panels of the extrapolated self-energy and plot_cont_fs show the mesh frequency nearest to w_plot or the window mean, in the plane kz=0, at the right momenta if the numbers of momenta are even; plot_chi_along_kpath shows w Re chi, and for each point of the path a frequency with the largest w Re chi, inside the limits of the axis for increasing frequencies from zero. Refuted: with odd numbers of momenta every value is half a step off; plot_cont_fs_no_shift exchanges kx and ky and its pixels are not at the momenta; the third panel is always the one of the frequency nearest to zero; a positive w_int gives maps of zeros; zero gets the colour of the largest number if nothing is positive; plot_chi_along_kpath raises IndexError if the frequency nearest to zero is the last.", "quantifier": "all arrays of numbers, periodic functions of momentum, lattices, frequency meshes, windows and paths", "why_tests_cant": "Arrays, lattices and meshes are unbounded and figures are looked at, not compared.", "anchors": ["src/dga/plotting.py:MidpointNormalize", "src/dga/plotting.py:plot_kx_ky", "src/dga/plotting.py:plot_siwk_extrap", "src/dga/plotting.py:plot_cont_fs", "src/dga/plotting.py:plot_cont_fs_no_shift", "src/dga/high_level_plotting.py:plot_chi_along_kpath"]}
{"id": "C116", "title": "Checks in the log", "statement": "Intended: the log shows whether the local Green function and mu fit the input, and how much memory the large arrays take. Holds: the number logged is the largest distance of both local Green functions at their common frequencies, zero exactly if they agree there, printed to within half a unit of the fourth decimal; the estimates for three-leg vertex and bubble are the size of complex arrays over all q and the frequency ranges; the estimate for the Green function is an upper bound exactly if the core of the self-energy is not larger than niv_full. Refuted: differences up to 1/20000 are logged as 0.0000, frequencies that one array lacks are ignored, nothing stops the run; the two mu compared are the same number in every run; the core has at least 20 frequencies, so for niv_full<20 the estimate for the Green function is too small; the estimate for F_cond is too large at least by the factor 2*niv_core.", "quantifier": "all Green functions, frequency ranges, lattices, boxes and settings", "why_tests_cant": "Arrays and ranges are unbounded; logged numbers are read by people.", "anchors": ["src/dga/config.py:DgaConfig.check_gloc_dmft", "src/dga/config.py:DgaConfig.log_estimated_memory_consumption", "src/dga/config.py:OpticsConfig.set_frequency_ranges", "src/dga/two_point.py:GreensFunction.__init__", "src/dga/dga_main.py:main"]}
{"id": "C117", "title": "Figures for inspection", "statement": "Intended: the figure of the Ornstein-Zernike fit shows susceptibility and fit along q_y=pi, q_x=pi and the diagonal; the check of the self-energies shows their real and imaginary parts; the lines along the Fermi surface show the self-energy at the given momenta in the chosen frequency window. Holds: the two cuts hold the values at the middle of the other axis (pi exactly for an even number of momenta) and qz=0 at the momenta of the lattice, for data and fit alike; every self-energy is shown at all its frequencies; each line holds exactly the values of the window, and an empty window or list of momenta stops the figure with an IndexError. Refuted: in the diagonal panel every point but the first stands right of its momentum, the last one (2 pi (n-1)/n) at 2 pi; with several qz all of them are mixed into it; the logarithmic panels leave out the lowest frequency and non-positive real parts; self-energies of odd length stop the check.", "quantifier": "all susceptibilities, fits, lattices, self-energies, momenta and frequency windows", "why_tests_cant": "Arrays and lattices are unbounded; figures are looked at by people.", "anchors": ["src/dga/plotting.py:plot_oz_fit", "src/dga/plotting.py:sigma_loc_checks", "src/dga/plotting.py:plot_along_ind", "src/dga/dga_io.py:fit_and_plot_oz"]}
{"id": "C118", "title": "Checks of the susceptibility", "statement": "Intended: the figure shows the susceptibilities against the bosonic frequency, and on logarithmic axes that they follow their asymptote 2 e_kin/(i w)^2. Holds: every curve holds the real part at all frequencies -n..n, in the logarithmic panels at the positive frequencies where it is positive; both logarithmic panels hold the same asymptote, equal to -2 e_kin/w^2 up to a relative error of 3 (1e-6/w)^2, visible at all its positive frequencies if e_kin<0. Refuted: with e_kin>=0 no asymptote is visible; it runs to the index 2n+1 while the data end at n; the static susceptibility is in no logarithmic panel; an even number of frequencies or an empty list of density susceptibilities stops the figure.", "quantifier": "all susceptibilities, lists of them, inverse temperatures below 2 pi 10^6 and kinetic energies", "why_tests_cant": "Ranges and temperatures are unbounded; figures are looked at by people.", "anchors": ["src/dga/plotting.py:chi_checks", "src/dga/matsubara_frequencies.py:wn", "src/dga/matsubara_frequencies.py:wn_beta", "src/dga/dga_io.py:chiq_checks"]}
{"id": "C119", "title": "Figures of the vertices", "statement": "Intended: a run draws figures of the local two-particle Green function, the generalised susceptibility and the irreducible vertex at chosen bosonic frequencies, for every box. Holds: a figure shows exactly the real and imaginary parts at all pairs of fermionic frequencies of the requested range; the figures of the susceptibility work for every box; those of the Green function and the irreducible vertex are the right ones if there are at least ten bosonic frequencies, the latter restricted to the smaller one of niv_core and 2*int(beta). Refuted: every run with fewer than ten bosonic frequencies in the box is stopped with an AssertionError by these figures.", "quantifier": "all vertices, box sizes, bosonic frequencies and ranges", "why_tests_cant": "Boxes are unbounded; the tests do not draw.", "anchors": ["src/dga/plotting.py:default_g2_plots", "src/dga/plotting.py:default_gchi_plots", "src/dga/plotting.py:default_gamma_plots", "src/dga/local_four_point.py:LocalFourPoint.plot", "src/dga/local_four_point.py:plot_fourpoint_nu_nup", "src/dga/dga_main.py:main"]}
