{"claims": [
  {"property": "C01", "status": "proved", "theorems": ["C01_run_stops_at_final_time", "C01_visited_times", "C01_exact_end_refuted"], "note": "Exact reals. Finding: landing exactly on the final time fails when the last remainder is below 1e-8 time steps."},
  {"property": "C02", "status": "proved", "theorems": ["C02_no_overshoot_and_exact_landing", "C02_terminates_iff_margin_survives", "C02_few_steps_stop", "C02_many_steps_never_stop", "C02_termination_refuted"], "note": "IEEE binary64 through Flocq. Finding: runs of more than 2^29 steps never stop."},
  {"property": "C03", "status": "partial", "theorems": ["C03_accepted_options_stop_iff_step_positive_partial", "C03_options_accepted_iff", "C03_accepted_options_stop_refuted"], "note": "False as stated: a negative time step is accepted and the run never stops. Proved: accepted options stop exactly when the resulting step is positive."},
  {"property": "C04", "status": "partial", "theorems": ["C04_export_schedule", "C04_record_count", "C04_first_and_last_state_exported_partial", "C04_built_solver_exports", "C04_last_state_exported_refuted"], "note": "Schedule and counts proved for every call sequence. The last-state part holds for time steps up to 1 and is refuted above: the probes' margin is absolute, the loop's is relative."},
  {"property": "C05", "status": "proved", "theorems": ["C05_saves_respected", "C05_parsed_interval_stable"], "note": "Time steps in (0,1]; the upper bound needs dt >= 1e-8 (the code's own tolerance)."},
  {"property": "C06", "status": "partial", "theorems": ["C06_interval_in_force_partial", "C06_explicit_steps_kept_refuted"], "note": "False as stated: saves overrides steps once the solver is built. The interval in force is characterised exactly."},
  {"property": "C07", "status": "proved", "theorems": ["C07_movie", "C07_frames"], "note": ""},
  {"property": "C08", "status": "proved", "theorems": ["C08_mor_snapshots", "C08_mor_lateness"], "note": ""},
  {"property": "C09", "status": "partial", "theorems": ["C09_mor_complete_partial", "C09_mor_complete_calls_partial", "C09_mor_complete_refuted"], "note": "False as stated when the window ends inside the run. Proved when a call falls at the window's end, in particular when the window ends at the final time."},
  {"property": "C10", "status": "partial", "theorems": ["C10_set_final_time_refuted", "C10_same_final_time_partial", "C10_interval_one_partial"], "note": "False as stated: the probes keep the old final time."},
  {"property": "C11", "status": "proved", "theorems": ["C11_coupled_elements_share_rank", "C11_groups_are_connected_components"], "note": "Every hash-map iteration order and every outcome of the unstable sort. With P <= 1 the function returns early, so the given partition must already be valid."},
  {"property": "C12", "status": "partial", "theorems": ["C11_coupled_elements_share_rank", "C12_arbitrary_pairs_stay_in_range_partial", "C12_diagnostics_unchecked_refuted"], "note": "Holds for every mesh whose faces name existing elements. For arbitrary pair lists the rank-0 diagnostics index the partition unchecked: refuted there."},
  {"property": "C13", "status": "proved", "theorems": ["C13_loads_are_true_and_choice_is_minimal"], "note": ""},
  {"property": "C14", "status": "proved", "theorems": ["C14_merge_is_sum_of_blocks", "C14_merged_product_is_sum_of_block_products"], "note": "First theorem for arbitrary value operations, second over exact reals."},
  {"property": "C15", "status": "proved", "theorems": ["C15_merge_is_well_formed", "C15_misfit_is_undefined"], "note": ""},
  {"property": "C16", "status": "proved", "theorems": ["C16_direct_assembly_equals_entrywise", "C16_source_operator_equals_merge", "C16_scatter_accumulates_contributions"], "note": ""},
  {"property": "C17", "status": "proved", "theorems": ["C17_global_operator_is_maxwell_curl"], "note": "Exact reals; the final thresholding at 1e-20 is not modelled."},
  {"property": "C18", "status": "proved", "theorems": ["C18_read", "C18_write", "C18_outside", "C18_cover", "C18_vector_views", "C18_offsets", "C18_other_operators", "C18_sources", "C18_copies"], "note": "For every size, component and index."},
  {"property": "C19", "status": "proved", "theorems": ["C19_tangential"], "note": "For any jumps, any alpha and any unit normal; on the function that computes the six flux components at a node."},
  {"property": "C20", "status": "proved", "theorems": ["C20_balance", "C20_sign"], "note": "Energy is half the squared norm, so the rate is -alpha/2 times the squared tangential jumps (-alpha for the norm itself). C68 sums it over the whole domain."},
  {"property": "C21", "status": "partial", "theorems": ["C21_mirror_partial", "C21_PEC", "C21_PMC", "C21_SMA_partial", "C21_SMA_refuted", "C21_interior_PEC_refuted"], "note": "PEC and PMC boundaries are mirror states and add no energy. Absorbing boundaries add none for alpha >= 1/2 but can below (refuted). Metal between two elements is not a mirror state and can add energy for every alpha (refuted)."},
  {"property": "C22", "status": "proved", "theorems": ["C22_workspace_clean"], "note": "The work vector is allocated on first use; empty or all zero after every call history."},
  {"property": "C23", "status": "proved", "theorems": ["C23_mult_depends_on_arguments", "C23_implicit_depends_on_arguments", "C23_layers_depend_on_steps", "C23_mult_before_commit"], "note": "Steps positive; implicit steps other than -1. Finding: with layers present, evaluating before the first commit throws."},
  {"property": "C24", "status": "proved", "theorems": ["C24_cached_solves_are_right", "C24_minus_one_refuted"], "note": "Exact reals, given an exact inverse. Finding: a first step of -1 dereferences a missing factorisation. The GMRES path above 600 unknowns is an oracle."},
  {"property": "C25", "status": "proved", "theorems": ["C25_any_schedule", "C25_no_deadlock", "C25_terminates", "C25_parallel_mult", "C25_parallel_finalize"], "note": "Interleaving at sub-step granularity; threads share only the state array."},
  {"property": "C26", "status": "partial", "theorems": ["C26_substeps", "C26_layer_time_partial", "C26_last_part", "C26_thin_layer_refuted"], "note": "Exact reals. Finding: layers with a limit below 1e-9 are never advanced at all, so the statement fails there."},
  {"property": "C27", "status": "proved", "theorems": ["C27_device_load", "C27_device_fields", "C27_device_scatter", "C27_device_clear"], "note": "Any order of kernel iterations. mfem Read/Write/ReadWrite are taken to give valid data."},
  {"property": "C28", "status": "proved", "theorems": ["C28_sum", "C28_order", "C28_undriven", "C28_input", "C28_input_modes"], "note": "values at the nodes, for every list of sources whose functions are defined on the points of the mesh; the projection is nodal"},
  {"property": "C29", "status": "partial", "theorems": ["C29_global", "C29_nodal", "C29_matrix_partial", "C29_matrix_refuted"], "note": "proved for the global and the nodal operators; the matrix operator is right with one total field source only: with several it injects the last one once per source"},
  {"property": "C30", "status": "proved", "theorems": ["C30_travel", "C30_transverse", "C30_maxwell", "C30_profiles", "C30_low_dimension", "C30_longitudinal_refuted"], "note": "also shown to solve Maxwell's equations; a polarisation along the direction of travel is accepted"},
  {"property": "C31", "status": "partial", "theorems": ["C31_values_partial", "C31_copy_partial", "C31_self_refuted"], "note": "every history of additions, copies, moves and writes without self-assignment; assigning a collection to itself empties it; probe collections are plain vectors with generated copies"},
  {"property": "C32", "status": "partial", "theorems": ["C32_modulated", "C32_gaussian_partial", "C32_mixed_refuted", "C32_plane_refuted"], "note": "false when both kinds are present, and for Gaussian plane waves, which carry no magnitude type"},
  {"property": "C33", "status": "partial", "theorems": ["C33_clean_partial", "C33_idempotent_partial", "C33_quadrangles_refuted", "C33_idempotent_refuted", "C33_numbers"], "note": "Proved for sections of blank lines and simplex records (idempotence for any element types). Findings: points stay in quadrangle/hexahedron meshes; a second run can change the file when an element number is not an int; records with fewer than two tags are damaged."},
  {"property": "C34", "status": "partial", "theorems": ["C34_crash_leaves_beginning_partial", "C34_untouched_partial", "C34_crash_refuted"], "note": "False as stated: the file is truncated in place before it is rewritten."},
  {"property": "C35", "status": "proved", "theorems": ["C35_assignment", "C35_accepted", "C35_refused", "C35_physical", "C35_wave", "C35_wave_lossy"], "note": "first entry wins; accepted inputs characterised exactly; speed, impedance and admittance of lossless materials"},
  {"property": "C36", "status": "proved", "theorems": ["C36_vector", "C36_epsmu", "C36_sigma", "C36_missing_refuted"], "note": "for every tag of the map, from the input to the coefficient; elements without a material are accepted and get 0 or an out-of-range read"},
  {"property": "C37", "status": "partial", "theorems": ["C37_markers", "C37_from_input", "C37_unknown_tag_refuted"], "note": "exact markers for tags within the boundary attributes of the mesh; a tag beyond them is accepted by the driver and written out of bounds, so memory safety is refuted for those maps"},
  {"property": "C38", "status": "proved", "theorems": ["C38_assignment", "C38_refused", "C38_outer_refuted"], "note": "exact tables for every accepted input and refusal of the others; an outer face sharing its tag with an interior face gets no outer condition"},
  {"property": "C39", "status": "partial", "theorems": ["C39_accept", "C39_total", "C39_mesh_refuted", "C39_opened", "C39_opened_all", "C39_tests", "C39_name", "C39_opened_refuted", "C39_opened_refuted2", "C39_defined"], "note": "acceptance is characterised exactly; the part on documented formats is false: no .mesh file is accepted; the mesh opened is the one checked exactly when .json occurs only at the end of the path and .mesh not in the name"},
  {"property": "C40", "status": "partial", "theorems": ["C40_lists", "C40_valid", "C40_line_partial", "C40_line_refuted", "C40_shared_refuted"], "note": "proved in two and three dimensions for every conforming mesh; in one dimension a single marked point beside the first element loses a side; a neighbour on another rank reported as less than -1 is kept"},
  {"property": "C41", "status": "partial", "theorems": ["C41_plane", "C41_partial", "C41_space_refuted", "C41_sides", "C41_empty", "C41_space_exact"], "note": "proved in the plane for counter-clockwise elements; in space the local number is that of the other element when the face is seen from the first"},
  {"property": "C42", "status": "partial", "theorems": ["C42_partial", "C42_refuted", "C42_range_refuted"], "note": "only the first interface is right, for every order; with three elements or more the others are wrong (C42_refuted) and the right end may lie outside the field (C42_range_refuted)"},
  {"property": "C43", "status": "proved", "theorems": ["C43_round_trip"], "note": "Bytes of the file, little-endian; doubles are 64-bit patterns."},
  {"property": "C44", "status": "partial", "theorems": ["C44_cut_in_snapshots_partial", "C44_cut_in_geometry_partial", "C44_prefix_refuted", "C44_sizes", "C44_header_refuted"], "note": "False as stated: a cut inside a snapshot yields an extra snapshot whose missing values are zero; the result of every cut is characterised exactly."},
  {"property": "C45", "status": "partial", "theorems": ["C45_value", "C45_nonnegative_partial", "C45_order_partial", "C45_distribution_partial", "C45_order_refuted", "C45_negative_refuted", "C45_sweep"], "note": "Every entry equals the closed formula. Order and distribution independence need ranks sampled at the same times: the incident pulse is sampled at the times of the rank read first (refuted otherwise). Non-negative except for negative frequencies in two dimensions (refuted)."},
  {"property": "C46", "status": "partial", "theorems": ["C46_alone_partial", "C46_repeated_partial", "C46_files_partial", "C46_repeated_refuted", "C46_files_refuted", "C46_rows", "C46_files_apart"], "note": "Proved for lists without repetitions; a repeated angle or frequency multiplies the value by the square of the repetitions, and the tool produces such lists when start equals end. Output files are shared by angles equal to six decimals."},
  {"property": "C47", "status": "partial", "theorems": ["C47_sum_partial", "C47_order_partial", "C47_files_partial", "C47_missing_file", "C47_malformed", "C47_mismatch", "C47_normalisation_refuted", "C47_order_refuted", "C47_extra_file_refuted", "C47_no_rank"], "note": "The value columns are summed and errors reported, but the normalisation column is summed too, angles and frequencies of the ranks are not compared, and files missing from the first rank are ignored."},
  {"property": "C48", "status": "partial", "theorems": ["C48_no_plane_wave_refuted", "C48_plane_wave_partial", "C48_valid_rejected_refuted", "C48_frequency_refuted"], "note": "The sentinel written is -1e5 and the one tested 1e5, so no case without a plane wave is rejected, and a plane wave with spread 1e5 is."},
  {"property": "C49", "status": "proved", "theorems": ["C49_round_trip", "C49_round_trip_plane", "C49_coordinates_back", "C49_vectors", "C49_length", "C49_frame"], "note": "For every point other than the origin. Real arithmetic; atan2 and acos as exact functions."},
  {"property": "C50", "status": "partial", "theorems": ["C50_rotation_partial", "C50_exchange", "C50_one_dimension_refuted"], "note": "A proper rotation taking the normal to the first axis in two and three dimensions. In one dimension the frame ignores the normal, so a normal of -1 is not taken to the first axis (refuted); the exchange of fields is still consistent."},
  {"property": "C51", "status": "proved", "theorems": ["C51_vertex_count", "C51_ghosts_before", "C51_wall", "C51_ghosts_after", "C51_increasing", "C51_materials", "C51_boundary", "C51_interfaces", "C51_enough_ghosts"], "note": "For every list of layers with positive widths and segment counts. The builder of the finite element mesh from the vertices is MFEM's."},
  {"property": "C52", "status": "partial", "theorems": ["C52_order_partial", "C52_sharing_partial", "C52_nan_refuted", "C52_hidden_refuted", "C52_order_refuted"], "note": "the tolerance used is zero; proved for matrices without NaN and any rebalancing of the tree; with a NaN entry the claim is false"},
  {"property": "C53", "status": "partial", "theorems": ["C53_selection_partial", "C53_quality_partial", "C53_nan_refuted", "C53_none_refuted", "C53_margin_refuted"], "note": "the selection is proved for every sequence of candidates; never returning an unstable fit is false in three ways, each with a witness"},
  {"property": "C54", "status": "partial", "theorems": ["C54_triangles_partial", "C54_equivalence_partial", "C54_segments", "C54_others_rejected", "C54_degenerate_refuted"], "note": "Triangles with distinct vertices: same orientation exactly for cyclic rotations, an equivalence. A repeated vertex breaks it (refuted)."},
  {"property": "C55", "status": "partial", "theorems": ["C55_zero", "C55_one", "C55_two", "C55_decoupled_zero", "C55_decoupled_one", "C55_decoupled_two", "C55_trace", "C55_interior", "C55_absorbing", "C55_total", "C55_nodal_flux", "C55_unit", "C55_agree", "C55_continuous", "C55_near_field", "C55_far_field", "C55_load", "C55_documented_refuted", "C55_flux_total_refuted", "C55_penalty_total_refuted", "C55_scattered_refuted", "C55_two_sided_load_refuted", "C55_load_measure_refuted", "C55_two_sided_load_partial", "C55_refused"], "note": "Every integrator used in production is the quadrature of a stated jump/average form for every rule, size and normal. The documented one-normal form is refuted (the code averages the test function) and four test-only integrators keep only the last point."},
  {"property": "C56", "status": "proved", "theorems": ["C56_bilinear", "C56_untouched", "C56_linear"], "note": "for every mesh, marker set and integrator list; face matrices are those of C55"},
  {"property": "C57", "status": "partial", "theorems": ["C57_centroids_partial", "C57_points_partial", "C57_corners_refuted", "C57_dipole_partial", "C57_centroid_mean", "C57_dipole_delay", "C57_plane_delay"], "note": "holds at the centroids of the marked boundary elements, with a bound for other points; false at corners"},
  {"property": "C58", "status": "partial", "theorems": ["C58_rank0_rejects_invalid_options_partial", "C58_all_ranks_reject_refuted"], "note": "False as stated: only rank 0 checks."},
  {"property": "C59", "status": "partial", "theorems": ["C59_interval_undefined_iff_partial", "C59_saves_with_automatic_step_refuted"], "note": "False as stated; the undefined cases are characterised exactly."},
  {"property": "C60", "status": "partial", "theorems": ["C60_label_close_partial", "C60_label_monotone_partial", "C60_label_injective_refuted"], "note": "Exporter labels are rounded to 1e-3 and can coincide."},
  {"property": "C61", "status": "partial", "theorems": ["C61_unusable_probe_rejected_refuted"], "note": "False as stated: undefined behaviour instead of an error."},
  {"property": "C62", "status": "partial", "theorems": ["C62_right_hand_side_partial", "C62_shared_dof_refuted"], "note": "Proved when no mesh dof belongs to two layers; refuted otherwise."},
  {"property": "C63", "status": "partial", "theorems": ["C63_implicit_stage_partial", "C63_conditions_reachable", "C63_layers_refuted"], "note": "Proved without layers and up to 600 unknowns; refuted with layers, which ImplicitSolve leaves out."},
  {"property": "C64", "status": "proved", "theorems": ["C64_layers_in_evaluation", "C64_layers_after_step"], "note": "Exact reals; the integrator is an arbitrary program of implicit stages whose steps are never -1. Stated for runs that end normally; the ghost dofs of the two sides must not meet. A part shorter than 1e-9 feeds the sides without integrating, as the code does (see C26)."},
  {"property": "C65", "status": "proved", "theorems": ["C65_frame_round_trip"], "note": "Exact reals; the frames the code builds are orthonormal by C50."},
  {"property": "C66", "status": "proved", "theorems": ["C66_schedule_independent", "C66_equals_serial"], "note": "Loads and stores are separate steps; any scalars and any addition. The static schedule of OpenMP gives the same division at every snapshot (trusted base)."},
  {"property": "C67", "status": "proved", "theorems": ["C67_value"], "note": "Real arithmetic. The data the constructor computes with MFEM is an argument satisfying wfNodal (index ranges, shapes, matching maps)."},
  {"property": "C68", "status": "proved", "theorems": ["C68_balance", "C68_never_grows", "C68_conserved", "C68_decay"], "note": "The discretisation identities (integration by parts, lifting, matching faces) are hypotheses, met by the example; solutions are differentiable curves of states."},
  {"property": "C69", "status": "proved", "theorems": ["C69_balance", "C69_requested", "C69_input", "C69_never_grows", "C69_decays", "C69_conserved", "C69_stays", "C69_untagged_refuted"], "note": "for every mesh, dimension, tag table, alpha and state; mass and derivative matrices are any that satisfy the inverse and integration by parts (MFEM's); one rank, exact arithmetic, no thresholding"},
  {"property": "C70", "status": "proved", "theorems": ["C70_equivalence", "C70_no_leak", "C70_run"], "note": "for every mesh, dimension, tag table, alpha and state; the surface separates two zones of elements, matrices are element blocks, the incident field handed to the source operator is plus or minus half the incident field on the two sides; one rank, exact arithmetic, without the 1e-8 skip threshold and without Threshold"},
  {"property": "C71", "status": "proved", "theorems": ["C71_maxwell", "C71_plane", "C71_origin", "C71_hertz"], "note": "exact arithmetic"},
  {"property": "C72", "status": "partial", "theorems": ["C72_complete_partial", "C72_kinds", "C72_dropped_refuted", "C72_short_vector_refuted"], "note": "an initial field whose magnitude type is not known is dropped without a message; vectors of other than three components are undefined behaviour"},
  {"property": "C73", "status": "proved", "theorems": ["C73_global", "C73_maps", "C73_usable", "C73_positions", "C73_tag_refuted", "C73_no_boundary", "C73_interior_on_boundary_refuted", "C73_interior_other"], "note": "two and three dimensions; two elements share at most one face; no element has the attribute 777; the limits are stated as theorems"},
  {"property": "C74", "status": "proved", "theorems": ["C74_recovery", "C74_search", "C74_frequencies", "C74_points_refuted"], "note": "exact linear algebra is a hypothesis on the two library calls, shown satisfiable; asking for no sample is undefined behaviour"},
  {"property": "C75", "status": "partial", "theorems": ["C75_plane_partial", "C75_space_partial", "C75_plane_refuted", "C75_space_refuted"], "note": "in the plane the rule depends on the numbering only; in space it is right when the two barycentres face each other as seen from the centre; both false in general, with witnesses"},
  {"property": "C76", "status": "proved", "theorems": ["C76_domains", "C76_global", "C76_child", "C76_transfer_add", "C76_transfer_sub", "C76_restore", "C76_meshes"], "note": "which elements are listed is C40 and C75"},
  {"property": "C77", "status": "proved", "theorems": ["C77_launch", "C77_lone_refuted", "C77_weaker"], "note": "the device, MPI start and the debug pause are not modelled"},
  {"property": "C78", "status": "partial", "theorems": ["C78_value", "C78_positive", "C78_triangles", "C78_tetrahedra", "C78_similar", "C78_line", "C78_line_positive", "C78_cfl", "C78_ranks", "C78_nodal", "C78_nodal_refuted", "C78_order0_refuted", "C78_quads_refuted"], "note": "false for the nodal operator in 3D with more than one rank or a curved element, and for the order 0 in 2D and 3D (out-of-bounds reads); quadrilateral faces count half of their area; volumes, 1D nodes and Gauss-Lobatto nodes are data; real arithmetic"},
  {"property": "C79", "status": "partial", "theorems": ["C79_matrix_partial", "C79_alpha0", "C79_alpha0_refuted", "C79_estimator", "C79_estimator_refuted", "C79_check", "C79_rejects_stable_refuted", "C79_accepts_unstable_refuted", "C79_boundaries", "C79_material", "C79_highest", "C79_max_modulus", "C79_max_refuted"], "note": "the matrix is right for alpha > 0 in vacuum; false for alpha = 0, for any other material, for the matrix of the eigenvalue estimator, and the check is not a stability criterion in either direction; eigenvalues and the ODE step are arguments"},
  {"property": "C80", "status": "partial", "theorems": ["C80_options_partial", "C80_total", "C80_accepted", "C80_unknown_key", "C80_order_refuted", "C80_string_refuted", "C80_range_refuted", "C80_rejects"], "note": "each option is the given value or the code's default; false with respect to the README for the default order, the type of basis_type and ode_type and the ranges of cfl and upwind_alpha"},
  {"property": "C81", "status": "partial", "theorems": ["C81_layer", "C81_total", "C81_resolution_partial", "C81_coarsest", "C81_order", "C81_wall", "C81_walls", "C81_bound_refuted", "C81_override_refuted", "C81_empty_refuted", "C81_width_refuted", "C81_shape", "C81_end_rejects"], "note": "the resolution holds below the bound of 1000 cells; false at the bound and when only the order is overridden; layers without cells, walls without layers and negative widths are accepted"},
  {"property": "C82", "status": "partial", "theorems": ["C82_markers_partial", "C82_one_surface", "C82_rejects", "C82_second_refuted", "C82_ranks_refuted"], "note": "the thin layer marker is exact; the total field marker is that of the first source touching the partition, which is the whole surface when the sources share their tags"},
  {"property": "C83", "status": "proved", "theorems": ["C83_from_case", "C83_materials", "C83_ends", "C83_options", "C83_step", "C83_step_positive", "C83_substeps", "C83_clone", "C83_report", "C83_verdict", "C83_walls", "C83_report_refuted", "C83_thin_refuted", "C83_clone_refuted", "C83_empty_refuted"], "note": "Exact arithmetic; the inner solver itself is an oracle in Evol_Model. Findings: only the first wall of a process is reported, cells crossed in less than 2e-9 are never advanced, the copy of a wall closed by PEC is open, a wall without layers is undefined."},
  {"property": "C84", "status": "proved", "theorems": ["C84_total", "C84_tags", "C84_sits", "C84_once", "C84_count", "C84_tasks", "C84_first_dofs", "C84_second_dofs", "C84_roomy", "C84_fits", "C84_fresh", "C84_line_inner", "C84_line_outer", "C84_plane_unturned", "C84_side_refuted", "C84_twice_refuted", "C84_line_refuted", "C84_order_refuted"], "note": "The pairs of facing nodes, reference positions and face normals come from the mesh library and are oracles with the stated properties (sitesOk); Conn_Model models the pairing itself. Findings: in the plane no pair is ever turned, so which side of a closed surface is first depends on the numbering; an attribute named twice gets two sets of copies of which the first may be too small for the wall; on a line of one element the right end is attached to the left node; on a line numbered backwards the two far ends are joined."},
  {"property": "C85", "status": "partial", "theorems": ["C85_same_operator_partial", "C85_lossless", "C85_conductivity_refuted", "C85_energy", "C85_ranks"], "note": "False as stated: the matrix operator has no conduction term (C85_conductivity_refuted, C85_energy). Proved: the exact difference for every mesh, condition and state, equality without conducting materials, and the same on several processes."},
  {"property": "C86", "status": "proved", "theorems": ["C86_point_table", "C86_field_table", "C86_numbered", "C86_unnumbered", "C86_shared_refuted", "C86_folder"], "note": "For probes numbered as the case file does (C86_numbered). Without a number the run is undefined (C86_unnumbered); with a shared number neither probe has its table (C86_shared_refuted)."},
  {"property": "C87", "status": "partial", "theorems": ["C87_point_fresh", "C87_field_fresh", "C87_domain_exact", "C87_near_stays", "C87_near_refuted", "C87_mor_refuted"], "note": "False as stated: near-field and reduction-state directories are never cleared. Proved for tables and, exactly, for domain snapshots; near-field snapshots not rewritten always stay."},
  {"property": "C88", "status": "partial", "theorems": ["C87_domain_exact", "C88_near_kept", "C88_surface_kept", "C88_mor_one_rank", "C88_mor_refuted"], "note": "False as stated: reduction states of all processes go to one file name. Proved for domain, near-field and surface data; a state file always holds one process's values only."},
  {"property": "C89", "status": "proved", "theorems": ["C89_no_hang", "C89_ends", "C89_measure"], "note": ""},
  {"property": "C90", "status": "partial", "theorems": ["C90_power_partial", "C90_nonnegative", "C90_translation_partial", "C90_throws", "C90_origin_refuted", "C90_rounding_refuted", "C90_phase_number", "C90_quotient", "C90_root"], "note": "False as stated: a quadrature point at the origin makes the phase 0/0 and the tool stops (C90_throws, C90_origin_refuted); in double arithmetic the phase of a point in the direction of observation can be NaN (C90_rounding_refuted). Proved in exact arithmetic for surfaces off the origin."},
  {"property": "C91", "status": "partial", "theorems": ["C91_order", "C91_section_partial", "C91_doubled", "C91_sampling_refuted"], "note": "The order never matters. False for the sampling: the reported value is the cross section divided by the number of snapshots."},
  {"property": "C92", "status": "partial", "theorems": ["C92_tools_partial"], "note": "False as stated; the exact ratios are proved: number of snapshots, and in two dimensions pi^2 for the power and 1/(2 f) for the section."},
  {"property": "C93", "status": "partial", "theorems": ["C93_sums", "C93_order", "C93_coherent", "C93_split_refuted", "C93_no_ranks"], "note": "False as stated: powers are added instead of amplitudes and the normalisation column is added too. The sums are proved exactly; the order of the ranks does not matter."},
  {"property": "C94", "status": "partial", "theorems": ["C94_incident_partial", "C94_simulated", "C94_carrier_refuted", "C94_ahead_refuted", "C94_no_mean_refuted"], "note": "False as stated: the carrier is ignored, a mean ahead of the origin is mirrored, a missing mean is undefined behaviour. Proved for the remaining plane waves."},
  {"property": "C95", "status": "proved", "theorems": ["C95_element", "C95_energy", "C95_blocks", "C95_blocks_throw"], "note": "From the constructor to the energy: connectivity, reference matrices, directional matrices, lifting. Hypotheses: conforming mesh, straight elements, matching quadrature on both sides of a face, an exact inverse of the mass matrix. Curved elements are not part of the energy statement."},
  {"property": "C96", "status": "partial", "theorems": ["C96_quadrilateral", "C96_refuted", "C96_hexahedra_refuted", "C96_mixed_refuted", "C96_segments", "C96_empty_refuted", "C96_types"], "note": "False as stated. Quadrilaterals: every derivative and face term is exactly four times too large. Hexahedra, mixed meshes and a rank without elements: undefined behaviour. Segments: an exception."},
  {"property": "C97", "status": "partial", "theorems": ["C97_split", "C97_outcome", "C97_units_refuted"], "note": "Everything but the unit of length is proved; the tolerance is absolute, so in small units no element is curved."},
  {"property": "C98", "status": "proved", "theorems": ["C98_curved"], "note": ""},
  {"property": "C99", "status": "partial", "theorems": ["C99_weak", "C99_difference", "C99_same", "C99_solutions", "C99_absorbing_refuted", "C99_sheet_refuted"], "note": "Equal, and with the same solutions, with alpha = 1 or without absorbing faces, and without interior walls. In every other case the exact difference is given face by face (C99_difference); it is not zero for absorbing faces with alpha other than 1 and for interior walls. Vacuum and no losses: the nodal operator has no materials."},
  {"property": "C100", "status": "partial", "theorems": ["C100_assembled", "C100_steady", "C100_nodal", "C100_nodal_refuted"], "note": "Proved for the assembled operator with every flux parameter, and for the nodal operator with alpha = 1 or without absorbing faces. False for the nodal operator at absorbing faces otherwise."},
  {"property": "C101", "status": "proved", "theorems": ["C101_implicit", "C101_conserved", "C101_stages"], "note": "Exact arithmetic; the bodies of the integrators are transcribed from mfem and are in the trusted base; no sources and no thin layers."},
  {"property": "C102", "status": "partial", "theorems": ["C102_rk4_partial", "C102_pairs", "C102_lossless", "C102_any_step_refuted"], "note": "Proved when the step is at most a quarter of the inverse of the bound of the operator (bound 1.0002 times the first energy, no growth over pairs of steps), and up to the classical limit in lossless problems. False for every fixed step: a conductor with a large conductivity makes the energy grow by 25 in each step. Missing: that the automatic time step is below the limit; see C105, which proves it for small Courant factors on a line and on straight triangles and tetrahedra, and refutes it for the default one."},
  {"property": "C103", "status": "proved", "theorems": ["C103_error", "C103_converges", "C103_solution"], "note": "Orders 4, 1, 2, 2, 3, 2, 4. Exact arithmetic; the constants of SDIRK33 are its binary64 numbers, so its third order holds up to a first-order term of 1e-16. No sources and no thin layers."},
  {"property": "C104", "status": "proved", "theorems": ["C104_bounded", "C104_error", "C104_converges", "C104_solution"], "note": "The source is any curve of vectors; that the code adds such a curve to the rates and to the right-hand side of the stages is C62 and C63. Accuracy of second order is proved for every integrator but backward Euler; the higher orders of three of them are proved without source only (C103). Exact arithmetic, no thin layers."},
  {"property": "C105", "status": "partial", "theorems": ["C105_bound", "C105_constants", "C105_line_partial", "C105_lossless", "C105_central_growth", "C105_upwind_growth", "C105_half_refuted", "C105_default_refuted", "C105_inverse", "C105_trace", "C105_line_space", "C105_line_order_partial", "C105_line_order_lossless", "C105_simplices_partial", "C105_simplices_lossless", "C105_space", "C105_simplex_parts", "C105_simplex_space", "C105_triangle_normals", "C105_tetra_normals", "C105_straight_partial", "C105_straight_lossless"], "note": "The bound of the operator from inverse and trace inequalities is proved for every space, dimension and order. The stability of runs with the automatic step is proved for linear elements on a line, of any number, lengths, materials, walls and losses, when the Courant factor is small (about 1/60 with the upwind flux; 0.298 without losses and with the centred flux), and for elements of any order on a line, straight triangles and straight tetrahedra when it is below a limit that depends on the reference element, the dimension and the flux alone, not on the mesh, its size or the materials. Missing: curved elements, quadrilaterals and hexahedra, and Courant factors between the proved limits and the exact ones. Integration by parts is proved on a line, and on straight triangles and tetrahedra with polynomial basis functions of any order and face quadrature exact for products of two of them. False for the default factor: between two walls every step multiplies the energy of a wave by 961 (upwind) or 13 (centred), and with the upwind flux the same happens from a factor of one half on."},
  {"property": "C106", "status": "partial", "theorems": ["C106_wave", "C106_walls", "C106_start", "C106_bounded", "C106_maxwell", "C106_slopes", "C106_companions_refuted", "C106_sizes", "C106_line"], "note": "The field itself is proved exact in every number of directions. False for the companions as magnetic fields: they are the slopes of the field divided by the frequency, in phase with the electric field instead of a quarter of a period behind. False for sizes: the constructors compare the empty members, so a short list of lengths is read past its end and a long one is cut. Missing: modes that are all zero, which divide by zero."},
  {"property": "C107", "status": "partial", "theorems": ["C107_file", "C107_only", "C107_api_partial", "C107_api_refuted", "C107_places_refuted"], "note": "Proved for cases started from their file. False as stated for programs that make solvers themselves (records are appended to old ones, and the first initialisation record is lost when the directory is missing; proved exactly) and for odd operator sizes above 94906265, whose square is rounded."},
  {"property": "C108", "status": "partial", "theorems": ["C108_parallel_evaluation_partial", "C108_parallel_run_partial", "C108_parts_determine", "C108_tagged_face_cut_refuted", "C108_source_evaluation_partial", "C108_source_run_partial", "C108_source_heard_run_partial", "C108_source_unheard", "C108_source_threshold_refuted"], "note": "Proved in exact arithmetic for runs without thin layers when no tagged face lies between two processes. With total-field sources the fields are equal as long as no process has a part of the incident field that is below the threshold and not zero; without that condition they are those of a run with the parts above the threshold (the rest is at most 1e-16 per process in sum of squares; refuted with a field that only a run on one process uses). Runs with thin layers are C111. The code keeps only faces of sources and layers on one process, so faces with other interior conditions can be cut (refuted with a partition); what MFEM does on such a face is not modelled."},
  {"property": "C109", "status": "partial", "theorems": ["C109_any_schedule_partial", "C109_matched", "C109_implicit_waits", "C109_implicit_ends_refuted", "C109_any_schedule_sources_partial", "C109_any_schedule_layers_partial", "C109_any_schedule_one_holder_partial"], "note": "Proved for runs with the explicit Runge-Kutta integrator, with or without total-field sources and thin layers, cut along untagged faces (as C108); with layers under the conditions of C111. False for implicit integrators: the linear solver is built without a communicator, so each process decides alone how often it exchanges. A run of one step never ends when nothing changes yet on one process and something does on a neighbour."},
  {"property": "C110", "status": "proved", "theorems": ["C110_solution", "C110_fields", "C110_run", "C110_driven_run"], "note": "The reference field is in the space of the solver; how well a smooth solution can be approximated there is not modelled. Built on the consistency of the operator (C100), the error of the integrators (C103, C104) and the decay of energy."},
  {"property": "C111", "status": "proved", "theorems": ["C111_layers_run", "C111_one_holder_run", "C111_threshold_refuted"], "note": "Explicit Runge-Kutta runs with the right-hand side of C108. The messages of the exchange are those of C107 and C109. That both elements of a layer face are on one process is what the partitioner ensures (C11); here it is in the hypotheses (the two element lists are shared, elementsShared, and each layer lies on the process that touches it, layersShared)."},
  {"property": "C112", "status": "proved", "theorems": ["C112_reports", "C112_reports_unique", "C112_never_blocks", "C112_second_run_refuted"], "note": "The collective calls follow the MPI standard: the k-th call of a process meets the k-th of the others. The point-to-point exchange of the evaluation itself is in C107 and C109. That a second run in the same process prints its own reports is refuted (static variables)."},
  {"property": "C113", "status": "proved", "theorems": ["C113_tool", "C113_parts", "C113_finds", "C113_elsewhere_refuted"], "note": "The two JSON files are oracles, and so is the outcome of the processing of a probe (its results are in C43 to C46). That every case the launcher accepts can be processed is refuted: the tool looks below ./testData/maxwellInputs only."},
  {"property": "C114", "status": "partial", "theorems": ["C114_types", "C114_nearest", "C114_partition", "C114_one_rank", "C114_no_sharing", "C114_empty_refuted", "C114_fine_refuted"], "note": "Proved except where refuted: a mesh without elements is read out of bounds instead of being refused, and for meshes with centres within 1e-5 of each other the map mixes up elements. The centres are oracles of the mesh, and that a process keeps its elements in the order of the whole mesh is a trusted fact about MFEM; both meshes give the same centre in exact arithmetic."},
  {"property": "C115", "status": "proved", "theorems": ["C115_digits", "C115_mor_exact", "C115_table_error", "C115_time_error", "C115_time_order", "C115_time_distinct", "C115_times_refuted", "C115_spectrum", "C115_position_error", "C115_position_refuted"], "note": "A text is represented by the decimal number it denotes; that the C library rounds to nearest even when printing and reading is trusted. That times are read back exactly, and that probes at different positions have different heads, is refuted. Times are zero or at least 2^-1000 in the relative bounds."},
  {"property": "C116", "status": "partial", "theorems": ["C116_files", "C116_throws", "C116_same_run", "C116_asked_refuted", "C116_operator", "C116_global_file", "C116_source_file", "C116_values", "C116_product", "C116_sums_refuted"], "note": "Proved for every matrix and every setup. Partial because the plain reading (asking gives a file, the file is the operator) is refuted: C116_asked_refuted and C116_sums_refuted show what is not kept."},
  {"property": "C117", "status": "partial", "theorems": ["C117_slab_partial", "C117_fields", "C117_conducting", "C117_outcome", "C117_layers_refuted", "C117_value_refuted"], "note": "Proved for layers of one material. Missing: stacks of several materials, for which the statement is false (C117_layers_refuted), and layers without losses at resonance or at frequency zero (C117_value_refuted)."},
  {"property": "C118", "status": "proved", "theorems": ["C118_count", "C118_geometry", "C118_read", "C118_unmarked"], "note": "C118_unmarked: the requirement of an attribute from 201 on is necessary."},
  {"property": "C119", "status": "partial", "theorems": ["C119_surface_partial", "C119_attribute_refuted", "C119_tag_refuted"], "note": "Proved when the sub-mesh has no attribute 201 of its own. Missing: sub-meshes that have, for which the statement is false (C119_attribute_refuted), and tags outside the attributes of the mesh (C119_tag_refuted)."},
  {"property": "C120", "status": "partial", "theorems": ["C120_right", "C120_agree_partial", "C120_agree_refuted", "C120_space_refuted", "C120_space"], "note": "Agreement is proved in the plane for segments that run as their face does; for the others, and in space, it is false (C120_agree_refuted, C120_space_refuted). Missing: faces whose orientation is zero, which no mesh with elements on both sides of the face has."}
]}
