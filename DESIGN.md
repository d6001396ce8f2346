# Formal model of DGApy in Rocq/Coq 8.16 — design

## Shape of the development (`rocq/theories`)

* `Base/`   Python/numpy primitives used by the code (slices with negative indices and clamping, `arange`, `roll`, `flip`,
  `unique`, `cumsum`, `take`, boolean masks, exceptions as values `Raise e`) and lemmas about them.
* `Model/`  one file (or a few) per modelled source file.  Every definition cites file and lines and says where it simplifies.
* `Spec/`   small vocabulary used in the statements (point groups, Matsubara sums, the Bethe-Salpeter equation, ...).  Nothing there models code.
* `Proofs/` lemmas.
* `Properties/` the property theorems: statement, `exact lemma`, `Print Assumptions`, and `Example`s showing that the
  hypotheses are met by concrete non-trivial cases.

Numbers.  Floating point is modelled by exact arithmetic.  Index arithmetic is `Z` (Python `//` and `%` are `Z.div`, `Z.modulo`).
Matrix algebra is over an arbitrary `fieldType` of mathcomp (`np.linalg.inv` is `invmx`; singular input is an explicit
error value).  Complex numbers are `R[i]` over an arbitrary real closed field `R` where conjugation or order matters.
Trigonometric, exponential and derivative parts use the standard library reals.

Errors.  Functions that can raise return `res A` (`Ok a` or `Raise e`); theorems that say a call succeeds show `= Ok`.

Parallelism.  An MPI program is modelled per rank; collectives are functions on the list of rank buffers, reductions are
quantified over every order/tree of the ranks, file writes over every interleaving of the ranks' write sequences and every crash point.

Policy when the code does not have the intended property: the English statement keeps the intention and says where it fails; the part
that holds is proved, and a theorem `..._refuted` or `..._finding` proves the failure on the model.


## Plan and status per property

| id | property | model (`Model/*.v`) | how it is proved | theorems |
|---|---|---|---|---|
| C01 | MPI task distribution is an exact ordered partition | MpiAux | tasks of rank r are the slice [cumsum r, cumsum (r+1)); induction over the rank list gives the ordered partition | `C01_tasks_partition` |
| C02 | MPI load is balanced | MpiAux | sizes are floor(n/p) or one more: arithmetic on `//` and `%` | `C02_balance`, `C02_size_is_task_count`, `C02_sizes_sum` |
| C03 | scatter followed by gather/allgather is the identity | MpiAux | collectives are functions on the list of rank buffers; concatenation of consecutive slices is the whole list | `C03_scatter_map_gather` |
| C04 | Reductions do not depend on the number of ranks | MpiAux | commutative monoid, any tree/order of reduction; permutation invariance of folds | `C04_allreduce_serial` |
| C05 | uniquify returns an unused path | Util | file system = finite set of names; loop with fuel, pigeonhole for termination, invariant "all smaller counters used" | `C05_terminates`, `C05_fuel_irrelevant`, `C05_result_unused` |
| C06 | Matsubara index grids are centred and ordered | Matsubara | index characterisation of `arange` | `C06_vn_grid`, `C06_wn_grid`, `C06_vn_antisymmetric`, `C06_wn_antisymmetric`, `C06_vn_pos`, `C06_wn_pos`, `C06_vn_of_array`, `C06_wn_of_array`, `C06_of_positive_array` |
| C07 | Frequency-shift conventions carry the same transferred frequency | Matsubara | case analysis on the notation string | `C07_freq_shift`, `C07_known_notations`, `C07_unknown_notation` |
| C08 | Fermionic completion from positive frequencies | Matsubara | index characterisation of flip/concatenate | `C08_completion`, `C08_symmetric`, `C08_positive_half`, `C08_recover` |
| C09 | Bosonic completion from non-negative frequencies | Matsubara | as C08, one and two axes | `C09_completion`, `C09_recover`, `C09_completion_two_axes` |
| C10 | Frequency cuts select the centred window | Matsubara | python slice semantics with negative bounds, `lia` | `C10_cut_v`, `C10_cut_v_pos`, `C10_cut_v_pos_default`, `C10_cut_v_two_axes`, `C10_cut_w`, `C10_cuts_compose`, `C10_default_is_identity`, `C10_cut_larger_than_grid_finding` |
| C11 | Core and shell decompose a grid | Matsubara | slices and concatenation by index | `C11_shell`, `C11_core_and_shell_rebuild`, `C11_core_and_shell_rebuild_window`, `C11_concatenate_then_split`, `C11_append_shell`, `C11_append_then_cut`, `C11_default_shell_drops_negative_finding` |
| C12 | w -> v-vp index transformation | Matsubara | double loop by index | `C12_w_to_vmvp` |
| C13 | Frequency-shifted slices | Matsubara | slice arithmetic | `C13_slices_core`, `C13_slices_shell`, `C13_cut_with_shift`, `C13_cut_with_shift_default` |
| C14 | Adding bosonic objects of different size | Matsubara | case split on the sizes | `C14_add_bosonic`, `C14_add_bosonic_comm` |
| C15 | ph -> pp transformation is total | Matsubara | loop over all indices, bounds by `lia` | `C15_ph2pp` |
| C16 | ph -> pp (w-centred) transformation domain | Matsubara | bounds; explicit failing inputs | `C16_ph2pp_wc_ok`, `C16_ph2pp_wc_fails` |
| C17 | Folding the Brillouin zone loses nothing for symmetric functions | BrillouinZone, KPath | orbit invariant of the label array under in-place symmetry steps; `np.unique` inverse | `C17_fold_unfold`, `C17_grid_exists`, `C17_unknown_symmetry_raises` |
| C18 | Unfolding then folding is the identity | BrillouinZone, KPath | labels are constant on orbits and minimal; counterexamples by computation | `C18_unfold_fold`, `C18_unfold_invariant`, `C18_x_y_inv_refuted`, `C18_order_matters_refuted` |
| C19 | Irreducible-zone averages equal full-zone averages | BrillouinZone, KPath | sum over fibres of the inverse map | `C19_k_mean`, `C19_counts` |
| C20 | Momentum shifts form a group action | BrillouinZone, KPath | `np.roll` as modular index shift | `C20_shift_value`, `C20_shift_compose`, `C20_shift_period`, `C20_shift_pi`, `C20_shift_pi_involution`, `C20_shift_by_q` |
| C21 | Local BSE inversion round trip | LocalFourPoint | mathcomp matrices over a field, inverse laws | `C21_chi_solves_bse`, `C21_gamma_solves_bse`, `C21_roundtrip_gamma`, `C21_roundtrip_chi` |
| C22 | Full vertex round trip and Bethe-Salpeter equation | LocalFourPoint | matrix algebra | `C22_roundtrip`, `C22_is_full_vertex`, `C22_vertex_from_gamma` |
| C23 | U-range asymptotics are exact for a U-padded vertex | LocalFourPoint | block matrices, Schur complement | `C23_recovers_core_vertex`, `C23_reproduces_core_chi` |
| C24 | Physical susceptibility from the auxiliary one | LocalFourPoint | rank-one (Sherman-Morrison) update | `C24_physical_susceptibility`, `C24_three_leg_vertex` |
| C25 | Vertex reconstruction from three-leg vertex and auxiliary susceptibility | LocalFourPoint | matrix algebra on three-leg vertices | `C25_vertex_reconstruction`, `C25_f_dc_same_legs` |
| C26 | Asymptotic correction is consistent | LocalFourPoint | field algebra | `C26_asymptotic_correction` |
| C27 | Generalised susceptibility <-> two-particle Green function | LocalFourPoint | entrywise algebra; completion of conjugate frequencies | `C27_gchir_from_g2`, `C27_roundtrip_g2`, `C27_roundtrip_chi`, `C27_too_short_g_finding`, `C27_symmetrize_v_vp` |
| C28 | Ladder vertex files survive a write/load cycle (non-negative w only) | RankFiles | HDF5 files as association lists keyed by strings; decimal formatting and the regexp `\d+` modelled on strings; any interleaving of ranks | `C28_nonneg_frequencies_survive`, `C28_refuted` |
| C29 | Pairing vertex files survive a write/load cycle as the Hermitian part | RankFiles | as C28, index bijection (w,v)->(v,v-w) | `C29_pairing_vertex_roundtrip`, `C29_loaded_vertex_hermitian` |
| C30 | chi(w) -> chi(v-vp) for the pairing vertex | RankFiles | index arithmetic | `C30_reshape_chi`, `C30_box_is_large_enough` |
| C31 | Bubble definition and conjugation symmetry | Bubble | sums over windows of lists | `C31_bubble_definition`, `C31_conjugation`, `C31_full_range_shortcut`, `C31_summed_bubble`, `C31_summed_bubble_shortcut`, `C31_bubble_matrix`, `C31_center_odd_shifted_finding`, `C31_center_shortcut_refuted`, `C31_gapped_grid_finding` |
| C32 | Lattice bubble is translation covariant and its q-average is the local bubble | Bubble | reindexing of finite sums over the cyclic mesh | `C32_lattice_bubble`, `C32_lattice_shortcut`, `C32_summed_lattice_bubble`, `C32_summed_lattice_shortcut`, `C32_q_average_is_local`, `C32_periodic_in_q`, `C32_translation`, `C32_crossing` |
| C33 | Self-energy stitching | TwoPoint | window arithmetic on the constructor | `C33_stitching`, `C33_dmft_outside`, `C33_dmft_data_lost` |
| C34 | Schwinger-Dyson equation is additive over q points | FourPoint, DgaMain | sums over lists of momenta and partitions | `C34_lattice_sde`, `C34_additive`, `C34_linear_in_kernel`, `C34_any_distribution` |
| C35 | Lambda correction enforces the sum rule above the pole | Lambda | rational function in lambda, monotone above the largest pole; Newton iteration invariant | `C35_use_lambda_shifts_inverse`, `C35_single_ok`, `C35_single_converges`, `C35_lambda_unique`, `C35_spch`, `C35_spch_sum_rules`, `C35_sp`, `C35_sp_sum_rule`, `C35_none`, `C35_unknown_raises`, `C35_exhaustion_silent_refuted` |
| C36 | Pairing-vertex symmetrisation is a projector | Eliashberg | finite group projector | `C36_symmetrize_value`, `C36_symmetrize_parity`, `C36_symmetrize_idempotent`, `C36_parts_add_up`, `C36_channels`, `C36_only_matching_parity` |
| C37 | Power iteration terminates at the first iterate fulfilling its rule | Eliashberg | fuel loop with iteration bound, invariant on the number of steps | `C37_search_ends`, `C37_search_result`, `C37_get_eig`, `C37_exact_eigenvector`, `C37_returned_pair`, `C37_second_search_degenerate_finding` |
| C38 | Orbital/spin component index encoding is a bijection | Symmetrize | mixed-radix arithmetic | `C38_band_encode`, `C38_band_encode_range`, `C38_band_decode_encode`, `C38_band_encode_decode`, `C38_general_decode`, `C38_general_encode` |
| C39 | Tight-binding dispersions | Wannier, HrFile | trigonometric identities over R | `C39_square_dispersion`, `C39_square_on_mesh`, `C39_nematic_on_mesh`, `C39_emery`, `C39_ek_3d`, `C39_ek_3d_z_finding` |
| C40 | Light vertex is the derivative of the dispersion | Wannier, HrFile | derivative of the Fourier sum (Coquelicot/Stdlib derivatives) | `C40_light_vertex_is_derivative`, `C40_light_vertex_on_mesh`, `C40_square`, `C40_square_vertex`, `C40_square_vertex_odd` |
| C41 | Pade interpolant reproduces its data | Pade | induction over the continued fraction; linear system for the matrix form | `C41_thiele_interpolates`, `C41_numerator_denominator`, `C41_padeThiele_is_C`, `C41_padeThiele_interpolates`, `C41_recursive_coefficients`, `C41_matrix_pade_interpolates`, `C41_coefficient_list_too_short_finding` |
| C42 | Configuration of the frequency boxes | Config | case analysis of the setters | `C42_set_from_lfp`, `C42_too_large_refused`, `C42_default_asympt`, `C42_default_asympt_refuted`, `C42_pairing_window_fits`, `C42_optics`, `C42_optics_refused`, `C42_optics_vertex_window`, `C42_optics_bubble_window`, `C42_optics_vertex_nonempty`, `C42_optics_vertex_nonempty_refuted` |
| C43 | k-path segments stay on the mesh | BrillouinZone, KPath | rounding of the segments, bounds | `C43_path_on_mesh`, `C43_corner_visited`, `C43_coordinates_isotropic`, `C43_anisotropic_wrong_refuted`, `C43_anisotropic_raises_refuted`, `C43_cind_off_by_one_finding` |
| C44 | Symmetrisation of lattice functions | BrillouinZone, KPath | the call raises | `C44_symmetrize_raises_refuted` |
| C45 | Gap-function orthogonalisation | Eliashberg | orthogonality by linear algebra; rational counterexample for three vectors | `C45_gram_schmidt`, `C45_gram_schmidt_span`, `C45_gram_schmidt_refuted` |
| C46 | Centred frequency sums take exactly the announced window | Matsubara | window arithmetic | `C46_centered_window`, `C46_default_sums_all`, `C46_wn_sum` |
| C47 | Look-up by bosonic index | Matsubara | python negative indices | `C47_lookup`, `C47_w0`, `C47_below_range_wraps_refuted`, `C47_above_range_raises` |
| C48 | Momentum lists and representatives | BrillouinZone, KPath | inverse map | `C48_representatives` |
| C49 | Quadrant masks | BrillouinZone, KPath | case analysis | `C49_masks` |
| C50 | Momentum look-up | BrillouinZone, KPath | argmin characterisation | `C50_find_q`, `C50_find_q_nearest`, `C50_no_wraparound_finding` |
| C51 | Shell-corrected lambda and susceptibility are exact for a U-padded vertex | LocalFourPoint | block matrices (core/shell) | `C51_lam_tilde`, `C51_chir_tilde` |
| C52 | Auxiliary susceptibility is route- and box-independent | LocalFourPoint | matrix algebra | `C52_from_chi_or_gamma`, `C52_urange_is_core_plus_bubble` |
| C53 | Three-leg vertex: lambda route equals auxiliary route | LocalFourPoint | matrix algebra | `C53_vrg_from_lambda_or_aux` |
| C54 | Local Schwinger-Dyson equation: all routes agree | LocalFourPoint | matrix algebra, equality of the four routes | `C54_from_vrg`, `C54_urange_is_one_formula`, `C54_total_self_energy`, `C54_from_full_vertex`, `C54_routes_agree` |
| C55 | Asymptotic correction of the auxiliary susceptibility | LocalFourPoint | field algebra; counterexample | `C55_consistent_with_ur_over_beta2`, `C55_code_inserts_u_refuted` |
| C56 | Parallel writes are independent of the schedule | RankFiles | commutation of writes to different files; invariant "file = prefix of that rank's writes" | `C56_no_schedule_fails`, `C56_schedule_independent`, `C56_other_files_untouched`, `C56_distinct_files`, `C56_fair_schedules_complete`, `C56_crash_points` |
| C57 | Optics vertex files survive a write/load cycle (non-negative w only) | RankFiles | as C28 | `C57_optics_vertex_roundtrip`, `C57_refuted` |
| C58 | A run on top of leftover rank files is refused | RankFiles | `create_group` on an existing name fails | `C58_rerun_is_refused` |
| C59 | Orbital symmetrisation is the orbit average | Symmetrize | orbit sums of a finite group action | `C59_orbit_average`, `C59_orbit_invariant`, `C59_groups_are_orbits`, `C59_one_band_su2`, `C59_check_sym_accepts`, `C59_check_sym_refuted`, `C59_other_bands_dropped_finding` |
| C60 | One-frequency symmetrisation | Symmetrize | orbit sums | `C60_band_average`, `C60_equivalent_bands_equal`, `C60_symmetric_data_fixed` |
| C61 | Lattice symmetry input | Config | case analysis of the constructor | `C61_named_symmetry`, `C61_other_name_refused`, `C61_named_symmetry_known`, `C61_unknown_never_a_grid`, `C61_list_of_known_refused_finding`, `C61_unknown_tuple_passes_check_finding` |
| C62 | Eliashberg kernel via Fourier transforms is the momentum convolution; parities are preserved | Eliashberg | finite Fourier transform on the cyclic group, convolution theorem | `C62_fft_kernel`, `C62_returned_parities` |
| C63 | Start gap | Eliashberg | parity of the start vector | `C63_start_gap_pauli`, `C63_start_gap_exists`, `C63_start_gap_form`, `C63_odd_window_raises`, `C63_p_wave_annihilated_finding`, `C63_p_wave_result_finding` |
| C64 | Symmetries of the Bloch Hamiltonian | Wannier, HrFile | Fourier sums over R | `C64_hermitian`, `C64_diagonal_real`, `C64_models_hermitian`, `C64_periodic`, `C64_mesh_inversions`, `C64_mesh_swap`, `C64_nematic_breaks_swap`, `C64_mesh_sum`, `C64_square_mean_zero`, `C64_emery_mean` |
| C65 | Hr file round trip | Wannier, HrFile | fixed-width formatting/parsing of lines as strings | `C65_hr_roundtrip`, `C65_fused_columns_finding`, `C65_create_orbs_finding` |
| C66 | Self-energy: one function on every window | GFObject | window arithmetic; least squares for the tail | `C66_sigma_const`, `C66_frequencies`, `C66_get_siw`, `C66_constructor`, `C66_fit_exact`, `C66_estimate_range`, `C66_estimate_value`, `C66_estimate_finding`, `C66_short_data_refuted`, `C66_default_core_short_refuted`, `C66_moments` |
| C67 | Green function: Dyson equation and causality | TwoPoint | matrix/field inverse; sign of imaginary part | `C67_greens_function`, `C67_causal` |
| C68 | Filling and chemical potential | GFObject | logistic function over R, root finder abstract with its contract | `C68_primitive_refuted`, `C68_atomic_limit`, `C68_fallback`, `C68_half_filling`, `C68_mu_roundtrip`, `C68_failed_search`, `C68_update_mu`, `C68_reported_filling_refuted` |
| C69 | Real-frequency Green function | TwoPoint | trapezoidal sum, masks | `C69_spectral_function`, `C69_filling`, `C69_filling_window`, `C69_reported_filling` |
| C70 | Energies are real | TwoPoint | conjugation symmetry of sums | `C70_energies`, `C70_hartree` |
| C71 | Bubble at irreducible momenta unfolds to the full zone | Bubble | orbit invariance of the bubble + C17 | `C71_irreducible_bubble`, `C71_bubble_symmetric` |
| C72 | Diagonal vertex approximation | LocalFourPoint | entrywise | `C72_f_diag`, `C72_unknown_channel` |
| C73 | High-frequency corrections of the bubbles | BubbleAsympt | tail sums over R | `C73_local_correction_is_the_tail`, `C73_q_correction_is_the_tail`, `C73_q_bubble_error`, `C73_local_bubble_error`, `C73_correction_vanishes`, `C73_q_average_is_local`, `C73_mean_energy_finding`, `C73_q_single_frequency_finding` |
| C74 | Ladder self-energy routines | FourPoint, DgaMain | sums over momentum lists | `C74_full`, `C74_full_with_shell`, `C74_channel`, `C74_channel_core`, `C74_double_counting`, `C74_weighted_irreducible_sum_refuted` |
| C75 | DGA self-energy of the parallel program | FourPoint, DgaMain | ranks as lists, reduction trees, unfolding (C17) | `C75_dga_self_energy` |
| C76 | Self-energy inherits the symmetries | FourPoint, DgaMain | reindexing of finite sums | `C76_point_symmetry`, `C76_conjugation` |
| C77 | Lattice ladder | FourPoint, DgaMain | matrix algebra, Schur complement | `C77_bethe_salpeter`, `C77_ladder`, `C77_divergence_raises` |
| C78 | Ladder vertex from its components | FourPoint, DgaMain | matrix algebra, exact deviation for non-symmetric vertices | `C78_ladder_vertex`, `C78_channels`, `C78_asymmetric_vertex_finding` |
| C79 | Double-counting kernel | FourPoint, DgaMain | matrix algebra | `C79_dc_kernel` |
| C80 | DGA reproduces DMFT in the local limit | FourPoint, DgaMain | combination of C54, C75, C77, C79 | `C80_local_limit` |
| C81 | Asymptotic corrections of the lattice ladder | FourPoint | field algebra, block matrices | `C81_kernel_invariant`, `C81_chi_asympt`, `C81_tilde` |
| C82 | Optical bubble | Optics | window arithmetic, conjugation | `C82_bubble`, `C82_all_frequencies`, `C82_directions_commute`, `C82_static_real`, `C82_no_transverse_response`, `C82_equivalent_directions`, `C82_small_box_raises`, `C82_wrap_finding` |
| C83 | Optical vertex contribution | Optics | sums over lists, rank independence | `C83_vertex`, `C83_all_cond_frequencies`, `C83_any_distribution`, `C83_local_vertex_vanishes`, `C83_documented_formula_finding`, `C83_total` |
| C84 | Pairing vertex end to end | VertexBuild, RankFiles, BrillouinZone | composition of C29, C30, C17 with elementwise operations | `C84_pairing_vertex`, `C84_hermitian`, `C84_exact_when_hermitian` |
| C85 | Optics vertex end to end | VertexBuild, RankFiles, BrillouinZone | composition of C57, C17 with elementwise operations | `C85_optics_vertex_nonneg`, `C85_refuted` |
| C86 | Optical conductivity on the real axis | OpticsReal | `chijj_realf_i` over lists and slices is computed to the trapezoidal sum (`realf_any_grid`), `argmin` by nearest-point lemmas on uniform meshes; positivity by shifting the sum over v by w and monotonicity of nf; the interpolation is an abstract function that passes through its data; counterexamples by evaluation on a 7-point mesh and by slice lengths. | `C86_uniform`, `C86_any_grid`, `C86_nonuniform_refuted`, `C86_even_mesh_finding`, `C86_wmax_checked`, `C86_conductivity_nonnegative`, `C86_fermi`, `C86_sigma`, `C86_sigma_zero`, `C86_end_to_end` |
| C87 | Real-frequency meshes | RealMesh | meshes over Coq's reals (tan, sinh, arcsinh as limits given by the standard library); monotonicity by derivative/convexity lemmas and the odd symmetry of the generating functions. | `C87_mesh`, `C87_zero_in_the_middle`, `C87_errors`, `C87_tan_mesh_not_uniform` |
| C88 | Spectral representation, Kramers-Kronig transformation, filling | Backtransform | lists computed to sums over functions of the mesh index; kernels split into real and imaginary part; bounds by termwise comparison of trapezoidal sums; particle-hole symmetry by reversing the sum; findings by evaluation on explicit meshes. | `C88_fermionic`, `C88_bosonic`, `C88_real_array`, `C88_fermionic_consequences`, `C88_bosonic_consequences`, `C88_kkt`, `C88_kkt_kinds_exchanged`, `C88_kkt_consequences`, `C88_round_trip`, `C88_errors`, `C88_filling`, `C88_filling_refuted` |
| C89 | Polynomial fits on the Matsubara axis | MatsubaraFit | numpy's least squares is any function that fits data on a polynomial exactly (`C89_least_squares` derives this from the minimality of the deviation; Newton interpolation is a witness); uniqueness of interpolation by counting roots; for the finding the interpolation of 1/x is written down explicitly, its value at zero is the sum of the 1/x_i. | `C89_least_squares`, `C89_range`, `C89_total_and_window`, `C89_exact`, `C89_weight_refuted`, `C89_on_indices`, `C89_poly_fit`, `C89_single_momentum_finding`, `C89_value_and_slope`, `C89_errors` |
| C90 | MaxEnt controller | MaxEnt | attributes are an association list, update = shadowing; the state change of n_fit is shown to be idempotent for matrices of equal size, so the stateful loop is a map; gather carries element type and row length, so that the MPI theorems reduce to C03; findings from the type tag of the zero rows and from the sizes of the distribution. | `C90_unsupported`, `C90_settings`, `C90_bosonic_rules`, `C90_preblur`, `C90_mesh`, `C90_window_fermionic`, `C90_window_bosonic`, `C90_model`, `C90_bosonic_model_refuted`, `C90_independent`, `C90_ranks`, `C90_failed_rank_finding`, `C90_idle_root_finding`, `C90_local_mesh_finding` |
| C91 | H(k) file round trip | HkFile | the file is a list of lines with newlines; the text of a number is abstract up to a stated law (one token, read back as the rounded number; instantiated with fixed-point text); tokens of the concatenated lines are the concatenated tokens, reshape by rows of 3+2n^2, then index arithmetic for the transposition. | `C91_round_trip`, `C91_header`, `C91_squeeze_finding`, `C91_short`, `C91_unreadable`, `C91_version_finding`, `C91_save_hk` |
| C92 | Ornstein-Zernicke fit | OzFit | floats are reals; C order from mesh_nth (C91); the denominator is bounded below by xi^-2 with equality only at the peak; two mesh points at different distances give two linear equations for a' and xi'^-2; the fitting routine is a parameter. | `C92_order`, `C92_maximum`, `C92_correlation_length`, `C92_symmetry`, `C92_identifiable`, `C92_recovered`, `C92_fallback`, `C92_kz_finding` |
| C93 | Input files: two-particle Green's function and one-particle data | InputFiles | a file is a finite list of named matrices; names are injective (zero-padded decimals), so the pigeonhole principle bounds the search loop; the loop is characterised by its first missing position; transposition twice is the identity; cutting uses C10, the box C42; restart: cutting and symmetrising are idempotent. | `C93_one_particle`, `C93_with_vertex`, `C93_paramagnet`, `C93_loaders_agree`, `C93_loaders_differ_finding`, `C93_chi`, `C93_chi_even`, `C93_chi_filling_finding`, `C93_build`, `C93_restart`, `C93_magn_box_finding`, `C93_build_empty`, `C93_input_types`, `C93_terminates`, `C93_names`, `C93_read_full`, `C93_read_iw`, `C93_read_iw_missing`, `C93_read_g2`, `C93_read_g2_finding`, `C93_gap_finding`, `C93_no_channel_finding`, `C93_symmetrize_roundtrip` |
| C94 | Averaged Pade continuation and PadeSolver | PadeAvg | Thiele part from C41; recovery: the difference of the two cross products has degree below the number of points it vanishes at, so it is zero; mirrored points are different because they lie in the lower half plane; argsort and lstsq are parameters with a stated guarantee, both instantiated in the examples; the plan is a closed list, checked by evaluation; averages of numbers in the lower half plane stay there. | `C94_plan`, `C94_pick_mirror`, `C94_pick_nonneg`, `C94_pick_pairs`, `C94_acPade_dispatch`, `C94_acPade_thiele`, `C94_acPade_recovers`, `C94_pade_recovers`, `C94_physical`, `C94_none_or_one`, `C94_distances`, `C94_mask`, `C94_two_continuations_finding`, `C94_solver`, `C94_jacobian`, `C94_nonlinear_start` |
| C95 | The local part of a run | LocalPipeline | Composition of the proofs for C11-C16, C22, C31, C50-C54 along the program text: each stage's output is identified with the quantity of the impurity problem, the kernel 1 - (1 - u_r chi) gamma is rewritten as F chi0 by the equation for the full vertex, and the sums over frequencies are regrouped; success is shown equivalent to regularity by following every inversion. | `C95_local_run`, `C95_singular_raises`, `C95_chir_uasympt_finding`, `C95_uasympt_q_finding` |
| C96 | Output folders of an MPI run | RunSetup | Ranks are programs over exists / mkdir / uniquify loop / bcast / barrier, run by an interleaving semantics in which every file system access is one step. Invariant: a bounded weakest precondition for rank 0 with the exact file system and one for the other ranks with what they can know from the broadcasts received and the barriers left; the bound is a decreasing measure, the barrier counters give progress. Findings by executing a schedule of the semantics. | `C96_folders`, `C96_terminates`, `C96_io_root`, `C96_polyfit_refuted`, `C96_io_refuted`, `C96_two_runs_refuted` |
| C97 | Evaluation of the configuration file | ConfigFile | Configuration objects are dictionaries built by the same updates as in the constructors. A closed form of every lookup (chain of layers) gives the precedence theorems; acceptance is an equivalence with a declarative predicate on the file; non-interference of added keys and unread sections by comparing the closed forms; round trip by the idempotence of the constructors. | `C97_accepted`, `C97_documented`, `C97_objects`, `C97_derived`, `C97_processes`, `C97_no_lattice`, `C97_empty_section`, `C97_ranks`, `C97_misspelt_key_finding`, `C97_unread_sections`, `C97_default_box_finding`, `C97_gap0_finding`, `C97_round_trip`, `C97_box_is_C42` |
| C98 | Analytic-continuation run | MaxEntRun | The four sections are one function of grid, data and kernel; a result of the MPI continuation is shown to be the row-wise continuation of the first ntasks rows (using C90), unfolding of too few rows raises, so a saved array has the right number of rows and the fold/unfold lemmas of C17/C18 give the value at every momentum. Section independence: two controllers that agree on all names that are read behave the same. | `C98_saved`, `C98_symmetric`, `C98_ranks`, `C98_all_requested`, `C98_completes`, `C98_prefix`, `C98_sections_independent`, `C98_other_grid_refuted` |
| C99 | Log file of a run | RunLog | Transition system of ranks and one file with the text rank 0 has passed to write but that has not reached the file yet. Invariant: file ++ pending = texts of rank 0's calls since its construction, the pending text being a suffix of the last one, and the timer holds the start and the last end of a task. The expected texts are defined in the specification from the history of calls alone. | `C99_contents`, `C99_complete`, `C99_untouched`, `C99_other_ranks`, `C99_raises`, `C99_lines`, `C99_times`, `C99_rounding`, `C99_readable`, `C99_memory` |
| C100 | Data files of a run | DataStore | The store is a map from resolved places to complete or torn files; the place of a data file is its folder plus one component, so two calls concern the same file exactly when folder and name agree. Induction over the history. | `C100_load_after_save`, `C100_load_after_clean`, `C100_load_untouched`, `C100_no_error`, `C100_no_folder`, `C100_one_entry_refuted`, `C100_interrupted_refuted` |
| C101 | Files and MPI operations of a whole run | RunFiles | Every rank has a program of MPI operations and file actions; a step lets one rank act, or leave an MPI operation once the ranks it depends on have entered theirs. Invariants: what is done and what is left is the program; a file is what its only writer has made of it; who has left the k-th operation knows that the ranks it waits for have entered theirs. From these a fetch is safe if the writer wrote the file before an operation the reader has left and keeps it until one it cannot leave before the reader. Progress from the rank with the fewest operations; termination by counting actions. | `C101_no_error`, `C101_no_deadlock`, `C101_terminates`, `C101_can_finish`, `C101_final_files`, `C101_rank_files`, `C101_unfit_refuted` |
| C102 | Continuation of local Green's functions for a range of blur widths | LocalCont | Solver, Kramers-Kronig transform, curve fit and the text of a float are parameters; the loop over widths is followed by induction with the folder as a map from names to contents. The optimum by inverting the fitted curve over the reals; the filling by the trapezoidal sum of a prefix of the mesh. | `C102_widths`, `C102_other_files`, `C102_mesh_file`, `C102_optimum`, `C102_two_runs`, `C102_too_few_refuted`, `C102_default_n_fit`, `C102_estimates`, `C102_filling`, `C102_filling_refuted` |
| C103 | Data shown over momenta: shifts by pi, planes of constant momentum, Fermi-surface points | ShownK | Arrays are values of a periodic function at mesh momenta; the rolled index is compared with the shifted axis modulo 2 pi over the reals. Matplotlib's contour is a parameter assumed to give exactly the zeros of the linear interpolation on lattice edges (an instance is constructed); truncation and rounding of its vertices are followed to the ends of the edges. | `C103_shift_even`, `C103_axes`, `C103_extent`, `C103_shift_odd_refuted`, `C103_plane`, `C103_plane_on_mesh`, `C103_plane_refused`, `C103_plane_negative_refuted`, `C103_plane_shifted_finding`, `C103_zeros`, `C103_no_zeros`, `C103_zeros_boundary_refuted`, `C103_contour`, `C103_no_contour_refuted`, `C103_checks`, `C103_checks_small_refuted`, `C103_checks_half`, `C103_add_q` |
| C104 | The Green's function object stays consistent over its lifetime | GFObject | The object is a record of its attributes; set_g_asympt is a state transformer that also returns the exception; a history is a fold of calls. Its state after a call is shown to depend on mu, n and core only; values follow from the grid lemmas of C66/C67. | `C104_consistent`, `C104_frequencies`, `C104_kept`, `C104_last_wins`, `C104_energies`, `C104_other_range`, `C104_negative_refuted`, `C104_construction` |
| C105 | Maximum-entropy spectrum at a given weight of the entropy | AnaSolver | Arrays are functions of indices, sums are explicit; the functional is expanded around the spectrum of a root; the entropy is bounded pointwise by exp x > 1 + x, the cross term cancels by the root equation. Derivatives with the standard library's derivable_pt_lim. | `C105_weights`, `C105_jacobian`, `C105_jacobian_injective`, `C105_optimum`, `C105_unique_root`, `C105_gap`, `C105_reported`, `C105_optimizer`, `C105_alpha_monotone`, `C105_kept_finding`, `C105_direction_refuted`, `C105_maximum_refuted` |
| C106 | Damped Newton root finder of the maximum-entropy solver | AnaNewton | The loop is a function of a bound on the rounds; it is compared with the sequence of Newton iterates by induction; C105 supplies the invertible Jacobian. | `C106_step`, `C106_ends`, `C106_result`, `C106_root_kept`, `C106_maxent`, `C106_linalg_refuted`, `C106_no_variables`, `C106_used` |
| C107 | Choice of the weight of the entropy | AnaAlpha | Loops bounded by fuel, compared by induction with the explicit list of weights; monotonicity along the records from the optimum theorem of C105; Bryan's weights from the trapezoid rule on a falling mesh. | `C107_tried`, `C107_divisor_refuted`, `C107_choice`, `C107_improves`, `C107_historic_refuted`, `C107_overwritten_finding`, `C107_bryan`, `C107_bryan_refuted`, `C107_dispatch` |
| C108 | Kernels, blurring and errors of the analytic continuation | AnaKernel | Numbers are real or absent (nan). Matsubara transforms with explicit antiderivatives (derivable_pt_lim); uniqueness by the mean value theorem; the covariance form by explicit complex sums. | `C108_freq_fermionic`, `C108_time_fermionic`, `C108_freq_bosonic`, `C108_repeated_zeros_refuted`, `C108_time_bosonic`, `C108_first_column_refuted`, `C108_symmetric`, `C108_kinds`, `C108_blur`, `C108_misfit`, `C108_covariance`, `C108_errors_finding` |
| C109 | Kramers-Kronig transformation | AnaProblem | Column sums of a square array compared term by term with the sum over the mirrored mesh. | `C109_general`, `C109_what_is_computed`, `C109_swapped_refuted`, `C109_negative_finding`, `C109_linear`, `C109_kinds` |
| C110 | Stating and solving a continuation problem | AnaProblem | Substitution in the trapezoid sums; the solver is a parameter, object identity of the chosen result is kept in the model. | `C110_modes`, `C110_time_fermionic`, `C110_time_bosonic`, `C110_phsym_refuted`, `C110_model_finding`, `C110_list_finding`, `C110_imaginary_refuted`, `C110_frequencies`, `C110_methods`, `C110_partial` |
| C111 | Paths through the Brillouin zone: names, labels, ticks, values, Fermi crossings | PathPlot, KPath | Splitting and joining of strings; prefix sums of segment lengths; the first minimum of a list of distances; the path through the whole zone worked out for every mesh. | `C111_names`, `C111_corners`, `C111_negative_finding`, `C111_labels_and_ticks`, `C111_tick_position_refuted`, `C111_values`, `C111_crossing`, `C111_crossing_found`, `C111_looked_at`, `C111_last_point_refuted`, `C111_beyond_pi_refuted`, `C111_beyond_pi_distance_refuted` |
| C112 | Analytic continuation: Bayesian quantities and the 'classic' choice of alpha | AnaBayes, AnaAlpha, AnaSolver | Eigen-decompositions: traces of functions of symmetric matrices, Bessel's and Jensen's inequalities; derivatives of entropy and probability; induction over the rounds of the search. | `C112_curvature`, `C112_matrix`, `C112_trace`, `C112_trace_antitone`, `C112_criterion`, `C112_probability`, `C112_slope_finding`, `C112_fallback`, `C112_classic`, `C112_prediction`, `C112_independent`, `C112_result`, `C112_classic_refuted`, `C112_default_refuted`, `C112_bryan`, `C112_bryan_off_refuted` |
| C113 | Command-line tools | CliTools | Trace semantics of the commands; composition lemma for sequences of jobs; induction over entries and arguments. | `C113_array`, `C113_array_monotone`, `C113_array_nan`, `C113_array_refuted`, `C113_lint`, `C113_unit`, `C113_main`, `C113_no_root`, `C113_unit_correct`, `C113_files_refuted`, `C113_lint_refuted`, `C113_mpi_refuted`, `C113_warning_finding`, `C113_config`, `C113_config_failure`, `C113_config_works`, `C113_config_same`, `C113_config_refuted`, `C113_dga_main_arguments`, `C113_sym1b_arguments`, `C113_arguments_refuted` |
| C114 | Analysis of a continued momentum-dependent self-energy | SwkAnalysis, ShownK, RealMesh, KPath | Sampled arrays against functions of momentum and frequency; induction over the axes; the trapezoid sum as a telescoping bound; the scan for sign changes of C103. | `C114_cut`, `C114_damped`, `C114_causal_refuted`, `C114_dyson`, `C114_shapes`, `C114_spectrum`, `C114_filling`, `C114_filling_bounds`, `C114_filling_local`, `C114_shift`, `C114_objective`, `C114_mu`, `C114_saved`, `C114_lda_filling_finding`, `C114_lda_refuted`, `C114_axis_refuted`, `C114_gamma_finding`, `C114_plane_refuted`, `C114_panel`, `C114_transposed_refuted`, `C114_panel_works`, `C114_no_line_finding`, `C114_rectangular_refuted`, `C114_quasi`, `C114_cuts` |
| C115 | Maps in the figures | FigMaps, SwkAnalysis, ShownK, KPath, PathPlot | Sampled arrays against periodic functions of momentum; a figure as the list of drawn points and values, compared as sets; induction for minimum, maximum and argmax. | `C115_colours`, `C115_scale`, `C115_colours_order`, `C115_zero_finding`, `C115_kxky`, `C115_extrap`, `C115_fs`, `C115_fs_even`, `C115_odd_refuted`, `C115_qdp_finding`, `C115_window_finding`, `C115_no_shift`, `C115_no_shift_refuted`, `C115_dispersion`, `C115_dispersion_refuted`, `C115_frame` |
| C116 | Checks in the log | LogChecks, GFObject, TwoPoint | The cut arrays against functions of the Matsubara frequency; induction for the maximum; integer inequalities between the sizes of arrays; the object of C104 for the Green function. | `C116_gloc`, `C116_messages`, `C116_silent_refuted`, `C116_window_finding`, `C116_empty_finding`, `C116_estimates`, `C116_fcond_refuted`, `C116_mu_finding`, `C116_giwk`, `C116_giwk_refuted` |
| C117 | Figures for inspection | SanityFigs, KPath, RealMesh, Matsubara | The curves against functions sampled on the lattice; the boolean mask picks row i of plane i by induction; a filtered range is a range; real inequalities for the places on the axis. | `C117_oz_panels`, `C117_oz_titles`, `C117_oz_diagonal_refuted`, `C117_oz_last`, `C117_oz_all_qz_refuted`, `C117_sigma`, `C117_sigma_odd`, `C117_sigma_log_finding`, `C117_along`, `C117_along_default`, `C117_along_window`, `C117_along_raises` |
| C118 | Checks of the susceptibility | ChiFigs, SanityFigs, Matsubara | Curves against functions of the bosonic frequency; the value of the asymptote in closed form by field, its error and sign by real inequalities. | `C118_panels`, `C118_tail`, `C118_visible`, `C118_range_finding`, `C118_static_finding`, `C118_even_raises`, `C118_no_data` |
| C119 | Figures of the vertices | VertexFigs, Matsubara, SwkAnalysis | The mask picks the entry n+iwn by induction on the range; the cut of C10; the lemma on pcolormesh of C114; then figure by figure. | `C119_figure`, `C119_outside`, `C119_g2`, `C119_small_box_refuted`, `C119_gchi`, `C119_gamma` |

## What `Print Assumptions` lists

Section variables that a `Print Assumptions` inside a section shows are quantified in the closed theorem and are not repeated here.

* Closed under the global context: 524 theorems.
* `ClassicalDedekindReals.sig_forall_dec`, `FunctionalExtensionality.functional_extensionality_dep`: 44 theorems: `C65_create_orbs_finding`, `C90_model`, `C90_bosonic_model_refuted`, `C99_contents`, `C99_complete`, `C99_untouched`, `C99_other_ranks`, `C99_raises`, `C99_lines`, `C99_times`, `C99_rounding`, `C99_memory`, `C103_zeros`, `C103_no_zeros`, `C103_zeros_boundary_refuted`, `C103_contour`, `C103_no_contour_refuted`, `C105_weights`, `C105_kept_finding`, `C106_step`, `C106_ends`, `C106_result`, `C106_root_kept`, `C106_linalg_refuted`, `C106_no_variables`, `C106_used`, `C107_historic_refuted`, `C107_overwritten_finding`, `C107_bryan`, `C107_bryan_refuted`, `C108_misfit`, `C108_covariance`, `C108_errors_finding`, `C110_modes`, `C110_model_finding`, `C110_list_finding`, `C110_imaginary_refuted`, `C110_frequencies`, `C110_methods`, `C110_partial`, `C111_corners`, `C111_tick_position_refuted`, `C112_curvature`, `C112_trace_antitone`.
* `ClassicalDedekindReals.sig_forall_dec`, `ClassicalDedekindReals.sig_not_dec`, `FunctionalExtensionality.functional_extensionality_dep`: 99 theorems: `C20_shift_by_q`, `C39_square_dispersion`, `C39_square_on_mesh`, `C39_nematic_on_mesh`, `C39_emery`, `C39_ek_3d`, `C39_ek_3d_z_finding`, `C40_light_vertex_is_derivative`, `C40_light_vertex_on_mesh`, `C40_square`, `C40_square_vertex`, `C40_square_vertex_odd`, `C43_path_on_mesh`, `C43_corner_visited`, `C43_coordinates_isotropic`, `C43_anisotropic_wrong_refuted`, `C43_anisotropic_raises_refuted`, `C50_find_q`, `C50_find_q_nearest`, `C50_no_wraparound_finding`, `C64_hermitian`, `C64_diagonal_real`, `C64_models_hermitian`, `C64_periodic`, `C64_mesh_inversions`, `C64_mesh_swap`, `C64_nematic_breaks_swap`, `C64_mesh_sum`, `C64_square_mean_zero`, `C64_emery_mean`, `C73_q_average_is_local`, `C73_mean_energy_finding`, `C73_q_single_frequency_finding`, `C87_errors`, `C90_unsupported`, `C90_settings`, `C90_bosonic_rules`, `C90_preblur`, `C90_window_fermionic`, `C90_window_bosonic`, `C90_independent`, `C90_ranks`, `C90_failed_rank_finding`, `C90_idle_root_finding`, `C91_save_hk`, `C92_order`, `C92_maximum`, `C92_correlation_length`, `C92_symmetry`, `C92_identifiable`, `C92_recovered`, `C92_fallback`, `C92_kz_finding`, `C102_default_n_fit`, `C102_estimates`, `C102_filling`, `C102_filling_refuted`, `C103_shift_even`, `C103_axes`, `C103_extent`, `C103_shift_odd_refuted`, `C103_plane`, `C103_plane_on_mesh`, `C103_plane_refused`, `C103_plane_negative_refuted`, `C103_plane_shifted_finding`, `C103_checks`, `C103_checks_small_refuted`, `C103_checks_half`, `C103_add_q`, `C105_jacobian`, `C105_jacobian_injective`, `C105_direction_refuted`, `C106_maxent`, `C108_freq_fermionic`, `C108_freq_bosonic`, `C108_repeated_zeros_refuted`, `C108_first_column_refuted`, `C108_symmetric`, `C108_kinds`, `C108_blur`, `C109_general`, `C109_what_is_computed`, `C109_swapped_refuted`, `C109_negative_finding`, `C109_linear`, `C109_kinds`, `C110_time_fermionic`, `C110_phsym_refuted`, `C111_names`, `C111_negative_finding`, `C111_labels_and_ticks`, `C111_values`, `C111_crossing`, `C111_crossing_found`, `C111_looked_at`, `C111_last_point_refuted`, `C111_beyond_pi_refuted`, `C111_beyond_pi_distance_refuted`.
* `ClassicalDedekindReals.sig_forall_dec`, `ClassicalDedekindReals.sig_not_dec`, `Classical_Prop.classic`, `FunctionalExtensionality.functional_extensionality_dep`: 44 theorems: `C73_local_correction_is_the_tail`, `C73_q_correction_is_the_tail`, `C73_q_bubble_error`, `C73_local_bubble_error`, `C73_correction_vanishes`, `C87_mesh`, `C87_zero_in_the_middle`, `C87_tan_mesh_not_uniform`, `C90_mesh`, `C90_local_mesh_finding`, `C102_widths`, `C102_other_files`, `C102_mesh_file`, `C102_optimum`, `C102_two_runs`, `C102_too_few_refuted`, `C105_optimum`, `C105_unique_root`, `C105_gap`, `C105_reported`, `C105_optimizer`, `C105_alpha_monotone`, `C105_maximum_refuted`, `C107_tried`, `C107_divisor_refuted`, `C107_choice`, `C107_improves`, `C108_time_fermionic`, `C108_time_bosonic`, `C110_time_bosonic`, `C112_matrix`, `C112_trace`, `C112_criterion`, `C112_probability`, `C112_slope_finding`, `C112_fallback`, `C112_classic`, `C112_prediction`, `C112_independent`, `C112_result`, `C112_classic_refuted`, `C112_default_refuted`, `C112_bryan`, `C112_bryan_off_refuted`.

## Trusted base

* The Coq 8.16.1 kernel (no native_compute; `vm_compute` is used in examples).
* The axioms listed above: those of the standard library reals (`ClassicalDedekindReals.sig_forall_dec`, `sig_not_dec`,
  `FunctionalExtensionality.functional_extensionality_dep`) and `Classical_Prop.classic` (through Coquelicot/Stdlib analysis lemmas).  No axioms of our own.
  mathcomp, real_closed and the standard library contain sealed modules whose fields a whole-library listing may show; none is an added axiom.
* Faithfulness of the hand translation (cited per definition).
* numpy/h5py/mpi4py/scipy behaviour as written in `Base/` and the model comments.
* Not modelled: floating-point rounding, NaN/inf, dtype overflow, broadcasting of length-one axes unless stated, memory, timing,
  logging, plotting.

## What is modelled
| source | model | not modelled |
|---|---|---|
| `mpi_aux.py` | `MpiAux`, file part in `RankFiles` | buffers' dtypes, mpi4py itself |
| `matsubara_frequencies.py` | `Matsubara` | plotting helpers |
| `util.py` | `Util` | |
| `brillouin_zone.py` | `BrillouinZone`, `KPath` | `KGrid` attributes used for plotting only |
| `local_four_point.py` | `LocalFourPoint`, `LocalSDE` | plotting, reading of files |
| `four_point.py`, `high_level_routines.py` | `FourPoint`, `DgaMain` | plotting |
| `pairing_vertex.py` | `RankFiles`, `VertexBuild` | plots |
| `optics.py` | `Optics`, `OpticsReal`, `RankFiles`, `VertexBuild` | cubic spline of `get_sigma_from_chijj_realf`, plots |
| `symmetrize.py` | `Symmetrize` | hdf5 bookkeeping of the main script |
| `config.py` | `Config` | yaml parsing, paths |
| `pade_aux.py` | `Pade` | random choice of subsets, plots |
| `lambda_correction.py` | `Lambda` | |
| `eliashberg_equation.py` | `Eliashberg` | |
| `wannier.py` | `Wannier`, `HrFile` | |
| `two_point.py` | `TwoPoint` | `scipy` root finder and minimiser (abstract, with their contracts) |
| `bubble.py` | `Bubble`, `BubbleAsympt` | |
| `dga_main.py` | `DgaMain`, `Optics` | argument parsing, file names, plots |
| `optics.py` 45-98 | `OpticsReal` | scipy's cubic interpolation is a function that passes through its data; exp and pi are parameters |
| `analytic_continuation.py` 81-126 | `RealMesh` | floats are Coq reals |
| `analytic_continuation.py` 131-203, 389-392 | `Backtransform` | division by zero is total; warnings not modelled; pi a parameter |
| `analytic_continuation.py` 40-78, `dga_io.py` 163-180 | `MatsubaraFit` | np.polyfit is a parameter behind its argument checks; 1/0 total; plotting and saving not modelled |
| `analytic_continuation.py` 203-361, `config.py` 324-360 | `MaxEnt` | the library ana_cont is a parameter; floats are Coq reals; settings that shadow methods, warnings and logging not modelled; an erroneous MPI gather is a RuntimeError |
| `wannier.py` 44-49, 369-450, 503-520 | `HkFile` | text of floats abstract (law stated); tokens that begin with a number are not split; negative header counts and warnings not modelled |
| `ornstein_zernicke_function.py`, `dga_io.py` 133-143 | `OzFit` | floats are Coq reals, 1/0 total; scipy's curve_fit is a parameter; text output and plots not modelled |
| `w2dyn_aux_dga.py` 224-299, `symmetrize.py` 159-176, 250-263 | `InputFiles` | an HDF5 file is a list of named matrices; one path spelling per dataset; numpy >= 1.24 (ragged arrays raise) |
| `w2dyn_aux_dga.py` 28-217, `dga_io.py` 33-128 | `InputBuild` | missing datasets are None; the ED reader and np.load are parameters of the dispatch; numpy broadcasting of unequal arrays is an error |
| `pade_aux.py` 71-157, 355-386, 398-399, 412-567 | `PadeAvg` | complex numbers over any real closed field; lstsq, leastsq, argsort are parameters; one column; printing and the split into real and imaginary parts not modelled |
| `high_level_routines.py` 21-80, `local_four_point.py` 366-389, 431-456, 465-470, `four_point.py` 97-102, 228-277 | `LocalPipeline` | exact complex arithmetic; plots, files and logging not modelled; the two asymptotic variants only up to the point where they stop |
| `config.py` 24-28, 112-134, 597-652, `dga_io.py` 22-31, `util.py` 12-25 | `RunSetup` | every os.path.exists/mkdir is one atomic step; no symbolic links or `..`; files are not distinguished from directories; bcast does not block the root |
| `config.py` 39-54, 63-110, 162-172, 216-281, 384-425, 433-444, 492-595, 685-736 | `ConfigFile` | YAML values as a datatype (string keys; floats only as text); the momentum grid and the reading of hopping files are parameters; matplotlib backend not modelled |
| `dga_max_ent.py` 83-194 | `MaxEntRun` | the local continuation, the Green's function and figures derived from a saved array and the logging are left out (a failure after a save is a parameter); ana_cont is a parameter |
| `loggers.py` 18-114 | `RunLog` | RealTime's own file and print methods (unused) are left out; the clock is a parameter; memory in exact arithmetic |
| `config.py` 136-149 | `DataStore` | the .npy format is not modelled (a file holds shape and entries, or is torn); lists and tuples are not saved in the code |
| `dga_main.py` 42-396, `dga_max_ent.py` 35-190, `mpi_aux.py` (files, operations), rank-file readers and writers | `RunFiles` | numerics, figures, the log file and the making of folders are left out here (C96, C99); one group name stands for the groups of all momenta of a rank; MPI operations have their weakest guaranteed dependences and match by position |
| `analytic_continuation.py` 389-460, `config.py` 329-368 | `LocalCont` | ana_cont's solver, `kkt`, scipy's `curve_fit` and the text of a float are parameters; figures left out; numbers are reals |
| `brillouin_zone.py` 34-66, 174-188, 329-351; `plotting.py` 41-55; `two_point.py` 502-513; `dga_io.py` 223-249 | `ShownK` | matplotlib's `contour` is a parameter; figures left out; numbers are reals |
| `two_point.py` 65-68, 228-255, 325-464 (as an object) | `GFObject` | `pi_shift` left out here (C103); scipy's newton is a parameter that evaluates its function at the start value first |
| `ana_cont/solvers.py` 120-600 | `AnaSolver` | numpy's singular value decomposition, the root finders and the blurring are parameters; reals for floats; Bayesian quantities (402-494) and printing left out |
| `ana_cont/solvers.py` 940-1081 | `AnaNewton` | scipy's pseudo-inverse is a parameter that may fail |
| `ana_cont/solvers.py` 606-654, 731-937 | `AnaAlpha` | the optimization at one weight, scipy's curve_fit and newton are parameters; 'classic' (657-728), plots and texts left out |
| `ana_cont/kernels.py`, `ana_cont/solvers.py` 119-169 | `AnaKernel` | reals or nan for floats; scipy's spline and numpy's eigh are parameters; Simpson's rule on the equally spaced mesh |
| `ana_cont/continuation.py` | `AnaProblem` | the solver is a parameter; printing left out |
| `dga/brillouin_zone.py` (KPath), `postproc/util.py` | `PathPlot` | float() of a string is a parameter; figures, get_bands and own axes left out |
| `ana_cont/solvers.py` (Bayesian quantities, classic) | `AnaBayes` | numpy's eigvalsh and scipy's newton are parameters; a zero number of good data is -0.0 |
| `cli/*.py`, `test_util/util_for_testing.py`, the arguments of dga_main | `CliTools` | sub-processes, directories and permissions are parameters; no links; argparse for separate words with exact names |
| `postproc/real_frequency_two_point.py`, `postproc/plot_siwk_cont.py` | `SwkAnalysis` | real arithmetic; scipy's minimize and matplotlib's contour are parameters; styling of the figure left out |
| `plotting.py` (MidpointNormalize, plot_kx_ky, plot_siwk_extrap, plot_cont_fs, plot_cont_fs_no_shift), `high_level_plotting.plot_chi_along_kpath` | `FigMaps` | real arithmetic; a figure is the list of places and values drawn; colour maps, labels, contour lines and files left out |
| `config.DgaConfig.check_gloc_dmft`, `log_estimated_memory_consumption` | `LogChecks` | real arithmetic; the text of the estimates (repr of floats) left out |
| `plotting.plot_oz_fit`, `sigma_loc_checks`, `plot_along_ind` | `SanityFigs` | real arithmetic; a figure is the list of its curves; colours, labels, limits and files left out |
| `plotting.chi_checks` | `ChiFigs` | real arithmetic; beta a float; e_kin a real parameter; labels, limits and files left out |

| `plotting.default_*_plots`, `local_four_point.LocalFourPoint.plot`, `plot_fourpoint_nu_nup` | `VertexFigs` | is_full_w objects; real arithmetic; titles, colours and names of files left out |
| `plotting.py`, `plot_specs.py`, `loggers.py`, `high_level_plotting.py` | — | figures and log texts: no statement about values |

## Findings (places where the code does not do what its documentation or its callers intend)

1. Rank files: group names such as `wn-001` are read back with `\d+`, so the sign is lost: all rows with negative bosonic
   frequency of the stored ladder and optics vertices come back as zeros (C28, C57, C85).
2. `get_chijj_bubble` wraps around silently for w > N+n (C82); its sibling `get_chijj_vertex` evaluates k+q where its documentation says k-q (C83).
3. `four_point.py` line 254 passes an array where `get_kernel_dc` expects an object: `get_vrg_and_chir_lad_from_gammar_uasympt_q` always raises.
4. The shell part of `schwinger_dyson_channel_q` ignores the multiplicities; a weighted sum over irreducible momenta is not the zone sum (C74).
5. The ladder vertex uses the same three-leg vertex on both sides; exact only for vertices symmetric in (v,v') (C78).
6. `dga_main.py` line 277 stores the DGA potential energy under the name of the DMFT one.
7. `local_four_point.py` 431-456 passes `u` as `sum_axis` (line 454); the assertion of `LocalNPoint` at line 96 is vacuous.
8. `chi_aux` asymptotics insert `u` instead of `u_r/beta^2` (C55).
9. `EliashbergConfig.set_gap0` overwrites the user's gap; the p-wave start gap is annihilated by the parity projection (C63).
10. Gram-Schmidt for three or more eigenvectors does not give mutually orthogonal gaps (C45); the search with a degenerate second eigenvalue (C37).
11. `GreensFunction` ignores `mu` when `n` is given; a failed Newton search is silent (C68). `RealFrequencyGF` ignores the success flag of `minimize` (C69).
12. K paths on anisotropic meshes give wrong points or raise (C43); `cind` is off by one.
13. `symmetrise` of lattice functions raises (C44). `find_q` has no wrap-around (C50).
14. Bosonic look-up below the range wraps (C47). Cutting to a larger box returns a shifted window (C10).
15. The default asymptotic box can be smaller than the core (C42). Lists of symmetries are refused / unknown tuples accepted by `LatticeConfig` (C61).
16. `write_hr_w2k` fuses columns for wide numbers and never closes its file; `create_wannier_hr` orbitals (C65).
17. Lambda correction: exhausting the iterations is silent (C35). `padeMatrix` needs an even number of points; `np.complex` is removed from numpy (C41).
18. `symmetrize.py` drops other bands (C59).
19. Momentum-mean energy in the bubble tail (C73). `dga_main.py` 358: `zeros_like(None)` if the bubble is switched off.
20. The real-frequency bubble always raises on symmetric meshes with an even number of points and shifts by mesh index, so the default (`tan`) mesh gives wrong values (C86).
21. `get_backtransform_kernel` does not know its own default kind; `kkt` exchanges symmetric and antisymmetric; `check_filling` misses the interval next to zero (C88).
22. `get_gamma_bandshift_z` extrapolates Im S(v)/v, so a finite scattering rate makes the quasiparticle weight too small; `poly_fit` raises on a grid with one momentum (C89).
23. The bosonic MaxEnt model is normalised with the value at the most negative frequency; a rank whose continuations all fail sends real instead of complex rows; with more ranks than momenta the root has no task and raises; `MaxEntConfig.mesh` ignores the configured mesh (C90).
24. `read_hk_w2k` squeezes the k axis (one momentum) or the band axes (one band) away and needs `np.int` for version-2 headers (C91).
25. The Ornstein-Zernicke function measures qz from 0 without periodicity, so equivalent planes differ (C92).
26. `read_g2_full` stops silently at a gap, so all frequencies are mislabelled; `read_g2` with a smaller `niw` returns the lowest frequencies; `load_dmft1p_w2dyn` and `get_chi` use totdens = 0 literally; `build_g2_obj` checks only the density vertex against the box (C93).
27. `pade()` rejects both continuations when exactly two differing physical ones exist and returns nan (C94).
28. `get_vrg_and_chir_tilde_from_chir_uasympt` passes U as `sum_axis` (TypeError for float U); `get_vrg_and_chir_lad_from_gammar_uasympt_q` passes an array where a vertex object is needed (AttributeError); neither is called by the program (C95).
29. `create_poly_fit_folder` and `dga_io.set_output_path` let each rank choose its folder, so ranks can disagree and hold a folder that does not exist; two runs started together can share an output folder (C96).
30. Configuration: unknown keys are accepted silently in every section; `get_default_config_dict` writes a `box` section that is never read (the code reads `box_sizes`); `gap0_sing`/`gap0_trip` settings are overwritten; flat sections share one name space (C97).
31. `dga_max_ent.main` distributes the k-dependent quantities with the number of irreducible points of the q grid; with different grids the run fails (C98).
32. `OutputConfig.load_data` returns an array with a single entry as a scalar (`.item()`), and `save_data` overwrites in place, so that an interrupted save loses the older data (C100).
33. `do_eliash: True` without `do_pairing_vertex`, or an `optics` section without `do_bubble`, makes root raise after the whole calculation and leaves all other ranks waiting for ever in MPI (C101). Seen while modelling, not stated as theorems: `dga_main.py` line 277 writes the DGA potential energy as that of DMFT in energies.txt, `save_vrg` saves only the part of rank 0.
34. `max_ent_loc` does not limit n_fit to the available frequencies: with the default n_fit and a small box the local continuation raises at the first blur width (C102).
35. Data shifted by pi are half a step off on odd grids; `get_k_slice` does not know periodicity and is used on shifted data with the unshifted axis; `find_zeros` misses crossings at the zone boundary; `get_zero_contour` raises without zeros; `default_giwk_checks` stops the run on grids with fewer than four momenta in x or y (C103).
36. `GreensFunction.set_g_asympt` accepts negative numbers and becomes inconsistent (C104); `update_mu_primitive` always raises IndexError (C68); `sigma_const` is constant up to the core only (C66).
37. ana_cont keeps one significant singular value too few, so the spectrum does not maximise the reported functional and part of the data is ignored; a problem with a single significant value cannot be solved (C105, C106).
38. ana_cont's Newton optimizer takes a failed pseudo-inverse for convergence and returns the start (C106).
39. ana_cont's searches for the weight of the entropy need not end (divisor at most 1; misfit above the number of data in 'historic'; constant probability in 'bryan'); 'historic' overwrites a recorded result; a bare except hides errors of the optimizations until an unrelated IndexError (C107).
40. ana_cont's bosonic time kernel sets its first column to 1 whatever the first frequency is; repeated zeros on the axes of the bosonic frequency kernel give nan or IndexError; preblur with a kernel that cannot be blurred, and giving neither or both of stdev and cov, end in AttributeError (C108).
41. ana_cont's Kramers-Kronig transformation exchanges the symmetric and the antisymmetric formula (C109).
42. ana_cont's problem class: phsym time spectra are not scaled back, the default model is not scaled, only the chosen result is scaled back, imaginary phsym data become zeros, 'pade' does not exist, partial_solution returns an exception object (C110).
43. KPath: inner ticks one point early, a single number is taken for three coordinates, negative coordinates clash with the delimiter; find_fermi_crossing never returns the last point and knows no periodicity (C111).
44. Maximum entropy, 'classic': never ends if the criterion stays below 1 or if the default model reproduces the data; the criterion is not stationary for the probability; 'bryan' raises TypeError for off-diagonal elements (C112).
45. Command line: dga_lint looks at stderr only, so complaints of pylint (stdout, return code) are never noticed; the MPI test's outcome is ignored; warnings on stderr fail dga_unit_test; test_self_energy.py is not run; dga_dc overwrites an edited dga_config.yaml; '-p /data' without slash opens /datadga_config.yaml; the console script `dga` of setup.cfg cannot start (there is no module dga.cli) (C113).
46. dga_lint looks at 17 of the 28 modules of src/dga only (C113).
47. plot_siwk_cont: the spectral function of 0*swk is zero, so the second minimisation has a constant objective and mu_lda = mu0, whatever the band; a self-energy with Im > 0.04 is kept; the momentum axis has n points from -pi to pi inclusive for n momenta of the periodic zone (Gamma is shown at pi/(n-1)); the map is drawn with kx upwards, the Fermi line with kx to the right; the plane shown is kz = -pi for an even number nkz; without a Fermi line, or with nkx different from nky, the script raises after the files have been saved (C114).
48. Figures: with an odd number of momenta shift_xy_by_pi and the axis k_shift differ by half a step; plot_cont_fs_no_shift draws kx upwards on the axis labelled kx to the right, with pixels off their momenta; the third panel (qdp) is the one of the frequency nearest to zero whatever w_plot it is labelled with; a non-negative w_int integrates nothing; MidpointNormalize gives zero the colour 1 if zero is the largest number; plot_chi_along_kpath raises IndexError if the frequency nearest to zero is the last (C115).
49. Log: check_gloc_dmft compares mu_dmft with the mu the Green function was made with, i.e. with itself; differences below 5e-5 are logged as 0.0000; the "upper bound" for the Green function is none if the estimated core of the self-energy (at least 20) is larger than niv_full; the estimate for F_cond uses vn_size_core**3 for an array with one fermionic axis (C116).
50. Figures for inspection: the diagonal panel of the Ornstein-Zernike fit uses linspace(0, 2*pi, len) for the momenta 2*pi*i/n and mixes all qz; the cuts titled pi are at pi only for an even number of momenta; the logarithmic panels of sigma_loc_checks plot against the index of the frequency, so that the lowest one (0) is never shown (C117).
51. chi_checks: the asymptote is drawn up to the index np.size(chi_dens[0]), about twice the range of the data, in the magnetic panel too; it is invisible if e_kin>=0 (C118).
52. default_g2_plots (every run, rank 0) and default_gamma_plots draw iwn = 10 and -10: with niw_core < 10 the run stops with an AssertionError (C119).

