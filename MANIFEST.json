{
 "claims": [
  {
   "property": "C01",
   "status": "proved",
   "theorems": [
    "C01_every_sample_has_one_process"
   ],
   "note": "For every total >= 0 and every process count >= 1."
  },
  {
   "property": "C02",
   "status": "proved",
   "theorems": [
    "C02_index_codec"
   ],
   "note": "Includes 32-bit overflow of the product and of the index computation (UB in the model, excluded by the theorem when the size product itself does not overflow)."
  },
  {
   "property": "C03",
   "status": "partial",
   "theorems": [
    "C03_out_of_grid_rejected_refuted",
    "C03_linear_range_checked_partial",
    "C03_linear_index_rejected_refuted"
   ],
   "note": "False of the code: multi-index [0,5] on a 2x3 grid is accepted and aliases [1,2]; linear index 7 of 6 is accepted. The partial theorem states what is checked."
  },
  {
   "property": "C04",
   "status": "partial",
   "theorems": [
    "C04_single_process_partial",
    "C04_multi_process_termination_refuted"
   ],
   "note": "Holds for one process (all solver answers). False for two or more processes: `continue` at src/main_workflow.cpp:157 does not advance s, so no rank finishes."
  },
  {
   "property": "C05",
   "status": "proved",
   "theorems": [
    "C05_integer_in_range",
    "C05_linear_in_range",
    "C05_log_in_range",
    "C05_random_in_range",
    "C05_filenames_enumerate"
   ],
   "note": "Reals are exact (stdlib Reals axioms); rounding is not modelled."
  },
  {
   "property": "C06",
   "status": "partial",
   "theorems": [
    "C06_integer_reaches_maximum_refuted",
    "C06_maximum_size_refuted",
    "C06_integer_grid_partial"
   ],
   "note": "False: truncating division misses the maximum (0..10 with 4 samples ends at 9) and SetMaximumSize always leaves an integer unvisited; partial theorem gives the divisibility condition, distinctness and the size of the gap."
  },
  {
   "property": "C07",
   "status": "proved",
   "theorems": [
    "C07_port_tag_order",
    "C07_basis_tag_order",
    "C07_port_tag_map",
    "C07_basis_tag_map"
   ],
   "note": "Orders of port and basis tags; ordered maps keyed by them."
  },
  {
   "property": "C08",
   "status": "partial",
   "theorems": [
    "C08_printed_name_identifies_refuted",
    "C08_printed_name_identifies_plain_components_partial",
    "C08_printed_name_identifies_one_mode_partial"
   ],
   "note": "False in general ('a_vel'+'' vs 'a'+'vel'); holds when component names have no '_', and within one run (all tags separated by variable or none, variable names without '_')."
  },
  {
   "property": "C09",
   "status": "proved",
   "theorems": [
    "C09_store_returns_what_was_saved",
    "C09_solver_history_store",
    "C09_solver_history_is_saved"
   ],
   "note": "One vector length per tag is assumed; libROM's acceptance of a vector is a parameter (assertion when refused)."
  },
  {
   "property": "C10",
   "status": "proved",
   "theorems": [
    "C10_port_records_designate_their_columns"
   ],
   "note": "For every history of saves that completes."
  },
  {
   "property": "C11",
   "status": "proved",
   "theorems": [
    "C11_collected_files"
   ],
   "note": "Single-process collection; variable names without '_' (true of all solvers); HDF5 encoding of the files is abstracted to their contents."
  },
  {
   "property": "C12",
   "status": "partial",
   "theorems": [
    "C12_set_then_get",
    "C12_set_leaves_unrelated",
    "C12_set_accepted",
    "C12_absent_gives_fallback_refuted",
    "C12_optional_read_partial",
    "C12_read_does_not_modify_refuted",
    "C12_read_changes_only_prefixes_partial",
    "C12_read_through_maps_partial",
    "C12_array_roundtrip_refuted",
    "C12_array_roundtrip_partial"
   ],
   "note": "Set/get and the frame condition hold. Two clauses are false: an optional read below a scalar throws instead of giving the fallback, and a read below a list or null node converts it to a map; an empty list cannot be read back. yaml-cpp behaviour (operator[], conversions) is modelled from its documentation."
  },
  {
   "property": "C13",
   "status": "partial",
   "theorems": [
    "C13_overrides_left_to_right",
    "C13_last_assignment_wins",
    "C13_malformed_items_stop",
    "C13_empty_value_stops_refuted",
    "C13_empty_key_rejected_refuted"
   ],
   "note": "Left-to-right application, last wins, malformed items stop. False clauses: 'a==' (empty value) is accepted; '=b' (empty key) replaces the whole configuration. YAML parsing of a value is a parameter."
  },
  {
   "property": "C14",
   "status": "proved",
   "theorems": [
    "C14_look_up_first_match",
    "C14_look_up_entry"
   ],
   "note": "For entries that can be examined without an exception."
  },
  {
   "property": "C15",
   "status": "proved",
   "theorems": [
    "C15_protocol",
    "C15_report"
   ],
   "note": "One process; clock readings are integers."
  },
  {
   "property": "C16",
   "status": "partial",
   "theorems": [
    "C16_dense_round_trip",
    "C16_tensor_round_trip",
    "C16_vector_round_trip",
    "C16_int_array_round_trip",
    "C16_real_array_round_trip",
    "C16_array2d_round_trip",
    "C16_empty_refuted"
   ],
   "note": "Every non-empty size, including the row-major layout of the file. Refuted for empty matrices, tensors and 2D arrays (entry (0,0) is read to find the element type). HDF5 itself is modelled as named datasets; element conversion is not modelled."
  },
  {
   "property": "C17",
   "status": "proved",
   "theorems": [
    "C17_sparse_round_trip",
    "C17_matrix_blocks_round_trip",
    "C17_block_matrix_round_trip",
    "C17_block_matrix_other_offsets"
   ],
   "note": "Every CSR matrix with positive sizes; block tables of every positive size. A matrix without entries is read back non-finalized. Block matrices are only readable when row and column offsets both equal the given ones."
  },
  {
   "property": "C18",
   "status": "partial",
   "theorems": [
    "C18_csr_round_trip_partial",
    "C18_csr_overflow",
    "C18_csr_round_trip_refuted"
   ],
   "note": "False: whenever there are fewer entries than rows+1 the row-pointer buffer overflows. Partial theorem covers the remaining matrices. libROM's HDFDatabase is modelled from its documentation."
  },
  {
   "property": "C19",
   "status": "proved",
   "theorems": [
    "C19_sample_points_round_trip"
   ],
   "note": "All four integration types, all lists."
  },
  {
   "property": "C20",
   "status": "proved",
   "theorems": [
    "C20_code_decodes",
    "C20_decoding_is_lossless",
    "C20_orientation_replaced",
    "C20_segment_orientation"
   ],
   "note": "Segments only; triangle and square orientations are MFEM's."
  },
  {
   "property": "C21",
   "status": "proved",
   "theorems": [
    "C21_attribute_list"
   ],
   "note": "Both UpdateAttributes and UpdateBdrAttributes."
  },
  {
   "property": "C22",
   "status": "partial",
   "theorems": [
    "C22_one_port_per_interface_partial",
    "C22_internal_boundary_refuted"
   ],
   "note": "Holds for shared faces that carry no boundary element of the parent mesh; a shared face that carries one gets no port (refuted). Mesh splitting itself is MFEM's."
  },
  {
   "property": "C23",
   "status": "proved",
   "theorems": [
    "C23_instances_numbered"
   ],
   "note": "For all types in range; see C76 for the others."
  },
  {
   "property": "C24",
   "status": "proved",
   "theorems": [
    "C24_port_attributes",
    "C24_ports_fit_their_reference",
    "C24_fitting_ports_are_accepted"
   ],
   "note": "Attributes are also larger than every component boundary attribute."
  },
  {
   "property": "C25",
   "status": "proved",
   "theorems": [
    "C25_port_file_round_trip"
   ],
   "note": "For every traversal order of the unordered map; string attributes assumed stored faithfully."
  },
  {
   "property": "C26",
   "status": "proved",
   "theorems": [
    "C26_built_port"
   ],
   "note": "Coordinates are exact rationals, already transformed. The first elements of the pairs are distinct when the second component's port elements have distinct vertex sets."
  },
  {
   "property": "C27",
   "status": "proved",
   "theorems": [
    "C27_boundary_attributes",
    "C27_complete_configuration_accepted"
   ],
   "note": "Soundness of accepted configurations and acceptance of complete ones."
  },
  {
   "property": "C28",
   "status": "partial",
   "theorems": [
    "C28_set_block_matrix",
    "C28_set_block_vector",
    "C28_copy_matrix",
    "C28_outside_of_target_is_rejected",
    "C28_vector_outside_of_target_is_rejected",
    "C28_range_larger_than_block_refuted"
   ],
   "note": "Proved for ranges inside target and block; anything outside of the target is rejected. False as stated in one respect: a range larger than the block is accepted (next row or out-of-bounds read), see the refuted theorem."
  },
  {
   "property": "C29",
   "status": "partial",
   "theorems": [
    "C29_extraction",
    "C29_mult_sub_matrix",
    "C29_mult_transpose_sub_matrix",
    "C29_add_mult_transpose_sub_matrix",
    "C29_misfits_are_rejected",
    "C29_empty_selection_refuted"
   ],
   "note": "Proved for non-empty selections (repetitions and any order allowed) and at least one column; the empty selection reads element 0 of an empty array (refuted)."
  },
  {
   "property": "C30",
   "status": "partial",
   "theorems": [
    "C30_rtap",
    "C30_addw_rtap",
    "C30_sparse_rtap",
    "C30_addw_rtap_sparse",
    "C30_ctab",
    "C30_sub_rtap",
    "C30_sub_rtap_sparse",
    "C30_target_of_other_size_refuted"
   ],
   "note": "All variants proved: dense, sparse, weighted, selected rows, ComputeCtAB. Weights exist only in AddwRtAP. Dense selected-rows target of a different size keeps stale numbers (refuted)."
  },
  {
   "property": "C31",
   "status": "proved",
   "theorems": [
    "C31_contraction",
    "C31_scaled_contraction",
    "C31_bilinear",
    "C31_product_with_last_index",
    "C31_transposed_products",
    "C31_other_axis_is_rejected",
    "C31_tangent"
   ],
   "note": "Over the reals (exact arithmetic)."
  },
  {
   "property": "C32",
   "status": "partial",
   "theorems": [
    "C32_middle_index_refuted",
    "C32_middle_index_partial"
   ],
   "note": "False of the code (pointer into x is not advanced); true for vectors with equal entries."
  },
  {
   "property": "C33",
   "status": "proved",
   "theorems": [
    "C33_gram_schmidt",
    "C33_prefix_spans",
    "C33_succeeds_iff_independent",
    "C33_orthonormalize",
    "C33_heights_must_agree"
   ],
   "note": "Over the reals; division by a zero norm is UB in the model, hence success iff independent. Basis to orthonormalize against must have orthogonal columns; see C78 for the rest."
  },
  {
   "property": "C34",
   "status": "partial",
   "theorems": [
    "C34_block_of_unknown",
    "C34_unknown_of_block",
    "C34_order",
    "C34_default_variable_refuted"
   ],
   "note": "Bijection, inverse and order proved for all sizes and both orderings; refuted for the default argument: omitting the variable aborts."
  },
  {
   "property": "C35",
   "status": "proved",
   "theorems": [
    "C35_full_order_offsets",
    "C35_rom_offsets"
   ],
   "note": "Proved: offsets of the reduced vectors (both orderings) and of the full-order vectors of the scalar and elasticity solvers; those of the flow solvers are C63."
  },
  {
   "property": "C36",
   "status": "proved",
   "theorems": [
    "C36_projection",
    "C36_lifting",
    "C36_round_trip"
   ],
   "note": "Projection, lifting and round trip proved for every state whose bases are loaded (C80_loading shows such states arise)."
  },
  {
   "property": "C37",
   "status": "proved",
   "theorems": [
    "C37_galerkin",
    "C37_stokes"
   ],
   "note": "General block operator and the Stokes saddle-point operator, existence of the result included."
  },
  {
   "property": "C38",
   "status": "partial",
   "theorems": [
    "C38_component_partial",
    "C38_interface_partial",
    "C38_variable_partial",
    "C38_variable_ordering_refuted",
    "C38_reference_component",
    "C38_reference_interface",
    "C38_reference_missing_operator_refuted"
   ],
   "note": "Proved for the domain-first ordering or non-separate variables (partial) and for the reference versions; refuted for the variable-first ordering, and for missing operators in the reference versions."
  },
  {
   "property": "C39",
   "status": "partial",
   "theorems": [
    "C39_freed_once_partial",
    "C39_load_over_operator_refuted"
   ],
   "note": "Proved for sequences that load at most once and first; refuted otherwise: loading over an existing operator frees it twice."
  },
  {
   "property": "C40",
   "status": "proved",
   "theorems": [
    "C40_append"
   ],
   "note": "Exact effect of appending, including the sizes and all other blocks."
  },
  {
   "property": "C41",
   "status": "proved",
   "theorems": [
    "C41_sort_by_variables",
    "C41_sort_by_subdomains",
    "C41_inverse"
   ],
   "note": "Proved for all sizes and vectors."
  },
  {
   "property": "C42",
   "status": "proved",
   "theorems": [
    "C42_extract",
    "C42_insert",
    "C42_get_put_laws",
    "C42_bad_variable"
   ],
   "note": "Proved for all sizes and vectors; a variable index out of range stops the program."
  },
  {
   "property": "C43",
   "status": "proved",
   "theorems": [
    "C43_problem_types",
    "C43_single_type",
    "C43_markers"
   ],
   "note": "Proved: problem types (first listing, unnamed ones kept), single types, markers."
  },
  {
   "property": "C44",
   "status": "proved",
   "theorems": [
    "C44_rom_matrix"
   ],
   "note": "Proved for every layout, ordering and set of ports; entries of sparse blocks are compared by value."
  },
  {
   "property": "C45",
   "status": "partial",
   "theorems": [
    "C45_save_selected",
    "C45_bad_selection",
    "C45_save_step_partial",
    "C45_save_step_refuted"
   ],
   "note": "Saving without a step proved to save exactly the selected subdomains. Saving a step proved only if all subdomains are selected; refuted otherwise: a null collection is used."
  },
  {
   "property": "C46",
   "status": "proved",
   "theorems": [
    "C46_round_trip",
    "C46_saves",
    "C46_only_matching"
   ],
   "note": "Proved."
  },
  {
   "property": "C47",
   "status": "partial",
   "theorems": [
    "C47_timed_partial",
    "C47_timed_refuted"
   ],
   "note": "Proved with saving on and a file name given; refuted with saving off or with the default name: the program stops."
  },
  {
   "property": "C48",
   "status": "proved",
   "theorems": [
    "C48_sweeps",
    "C48_solution_kept",
    "C48_jacobi"
   ],
   "note": "NaN checks left out (exact reals); the dense inverse is a parameter with its specification as hypothesis."
  },
  {
   "property": "C49",
   "status": "partial",
   "theorems": [
    "C49_matrices",
    "C49_vectors",
    "C49_matrix_vector",
    "C49_gradient",
    "C49_port_matrices",
    "C49_mixed_vector_refuted"
   ],
   "note": "Sparse matrices are modelled by their values; integrators, finite element spaces and meshes are parameters. Applying a mixed form is an empty function in the code, shown as a refutation."
  },
  {
   "property": "C50",
   "status": "proved",
   "theorems": [
    "C50_samples",
    "C50_domain_samples",
    "C50_places"
   ],
   "note": "Samples from the gathered solution for domain, interior-face and boundary integrators; interface integrators use the same extraction."
  },
  {
   "property": "C51",
   "status": "proved",
   "theorems": [
    "C51_system",
    "C51_interface_system"
   ],
   "note": "Every entry of every process's matrix and of the right-hand side; libROM's distributed transposeMult is taken as specified."
  },
  {
   "property": "C52",
   "status": "proved",
   "theorems": [
    "C52_mult",
    "C52_gradient",
    "C52_interface_mult",
    "C52_interface_gradient"
   ],
   "note": "Mult, GetGradient, InterfaceAddMult and InterfaceGetGradient without precomputed coefficients equal the sums over samples at the lifted state, for any order and repetition of samples."
  },
  {
   "property": "C53",
   "status": "partial",
   "theorems": [
    "C53_reference_forms",
    "C53_shared_partial",
    "C53_shared_refuted",
    "C53_interface_forms",
    "C53_interface_load_refuted"
   ],
   "note": "Proved for reference forms and interface forms. Forms that borrow samples: safe if the reference forms are not updated or deleted afterwards (partial); otherwise refuted. Reading samples for a non-existing interface integrator is out of bounds (refuted)."
  },
  {
   "property": "C54",
   "status": "partial",
   "theorems": [
    "C54_mult",
    "C54_gradient",
    "C54_interface",
    "C54_interface_gradient",
    "C54_wind_refuted",
    "C54_stale_refuted",
    "C54_offset_refuted"
   ],
   "note": "Proved: the vector for domain, interior face and boundary face samples of a form, the gradient when the flux is differentiable and no two-sided face follows a one-sided use, and the port vectors when the variable starts at row zero of the bases; the interface gradient is proved per point. Refuted: a given wind is ignored by the precomputed convection, the gradient on a two-sided face depends on the last use of the integrator, and port precomputation ignores the row offset of the variable."
  },
  {
   "property": "C55",
   "status": "partial",
   "theorems": [
    "C55_convection",
    "C55_convection_point",
    "C55_wind_refuted",
    "C55_inviscid",
    "C55_inviscid_point",
    "C55_temam",
    "C55_temam_face",
    "C55_temam_interface",
    "C55_lax_friedrichs_face",
    "C55_lax_friedrichs_point",
    "C55_lax_friedrichs_interface",
    "C55_lax_friedrichs_interface_point",
    "C55_at_rest_refuted"
   ],
   "note": "Exact for convection (without a given wind), inviscid flux, Temam element/face/interface (with the exact quadratic remainder) and Lax-Friedrichs face, boundary and interface wherever the two speeds differ or the velocities agree and do not vanish. False with a given wind (the matrix ignores it) and, for Lax-Friedrichs, at rest: the derivative is zero there but the assembled matrix is not a number."
  },
  {
   "property": "C56",
   "status": "partial",
   "theorems": [
    "C56_files",
    "C56_restart_partial",
    "C56_restart_refuted"
   ],
   "note": "Restart is proved for the initial file and for every saved step at which visualization is due (every step with the default interval); in other steps the file holds an older solution (refuted). C56_files gives the exact content of every restart file."
  },
  {
   "property": "C57",
   "status": "proved",
   "theorems": [
    "C57_schedule",
    "C57_visualization"
   ],
   "note": "Snapshots, final time and final solution (C57_schedule) and visualization output (C57_visualization), for fresh and restarted runs."
  },
  {
   "property": "C58",
   "status": "partial",
   "theorems": [
    "C58_operator",
    "C58_tangent",
    "C58_pattern",
    "C58_pattern_refuted"
   ],
   "note": "Operator values, exact quadratic expansion and derivative of the tensor ROM for every layout, and that the linear matrix must store each entry with a nonzero convective derivative. Refuted without that: the Jacobian is accumulated in the finalized pattern of the linear matrix, and the run aborts on an entry that is not stored."
  },
  {
   "property": "C59",
   "status": "partial",
   "theorems": [
    "C59_operator",
    "C59_layouts",
    "C59_tangent",
    "C59_variable_refuted"
   ],
   "note": "Values and gradient of the hyper-reduced ROM for one basis per subdomain, for the ordering by subdomain, and in general whenever block 2m is as large as the velocity of subdomain m. Refuted for the ordering by variable with other sizes: the offsets of the interface form are taken from every other block."
  },
  {
   "property": "C60",
   "status": "partial",
   "theorems": [
    "C60_solution",
    "C60_idempotent",
    "C60_reduced",
    "C60_reduced_refuted"
   ],
   "note": "Proved for full-order runs, and for reduced runs whose pressure bases are orthonormal and contain the constant (C60_reduced). Refuted for other reduced bases (C60_reduced_refuted): the reduced run leaves a pressure with a nonzero sum."
  },
  {
   "property": "C61",
   "status": "partial",
   "theorems": [
    "C61_partial",
    "C61_refuted",
    "C61_order_refuted"
   ],
   "note": "Proved when the problem's boundary list and the mesh's agree in order (or the problem has one entry for all). Refuted otherwise: a write behind the end of the list (lid driven cavity on a mesh with four boundaries) and the wrong boundary left out (component flow on a mesh with another order)."
  },
  {
   "property": "C62",
   "status": "partial",
   "theorems": [
    "C62_problem",
    "C62_calls",
    "C62_refuted"
   ],
   "note": "Proved after setting any problem, and after any sequence of calls of which one concerns a boundary of the mesh. Refuted for solvers on which no effective call was made."
  },
  {
   "property": "C63",
   "status": "proved",
   "theorems": [
    "C63_flow_layouts",
    "C63_by_variable"
   ],
   "note": "Proved for all space sizes, two variables."
  },
  {
   "property": "C64",
   "status": "partial",
   "theorems": [
    "C64_accepted",
    "C64_rejected",
    "C64_unknown",
    "C64_by_index",
    "C64_single_run",
    "C64_index_refuted",
    "C64_poisson0",
    "C64_poisson_component",
    "C64_poisson_spiral",
    "C64_viscosity",
    "C64_channel",
    "C64_component_flow",
    "C64_backward_step",
    "C64_step_pressure",
    "C64_lid",
    "C64_force",
    "C64_concentration",
    "C64_material",
    "C64_displacement",
    "C64_lcantilever",
    "C64_cantilever",
    "C64_cantilever_refuted",
    "C64_frame_wind",
    "C64_train",
    "C64_train_refuted"
   ],
   "note": "For all 17 problem classes and every sequence of settings: which sequences are accepted, unknown names stop the program, by-index equals by-name, and the functions handed to the solver are the documented formulas in the last values set. Refuted: by-index on elasticity problems is undefined (parameter count never set); the cantilever's fixed end and the train's sides with switches off do not depend on the parameters alone."
  },
  {
   "property": "C65",
   "status": "partial",
   "theorems": [
    "C65_sides",
    "C65_fresh_refuted"
   ],
   "note": "Proved for every sequence of settings with at least one setting; refuted for a problem on which no parameter was set yet (all four sides Dirichlet)."
  },
  {
   "property": "C66",
   "status": "partial",
   "theorems": [
    "C66_poisson_partial",
    "C66_poisson_refuted",
    "C66_stokes_partial",
    "C66_stokes_refuted",
    "C66_stokes_nan_refuted",
    "C66_linelast_partial",
    "C66_linelast_refuted",
    "C66_linelast_traction_refuted"
   ],
   "note": "Poisson and flow: right-hand side, boundary functions, viscosity, pressure treatment and enforced conditions are those of the last problem, for every history, provided the problem is accepted on a new solver. Elasticity: types, material and given functions are replaced. Refuted: stale natural types with problems for all boundaries, order-dependent acceptance of flow problems, a stale centre that is not a number, loads that add up, tractions that stay."
  },
  {
   "property": "C67",
   "status": "proved",
   "theorems": [
    "C67_files",
    "C67_never_empty",
    "C67_ports"
   ],
   "note": "Proved for every configuration whose tag entries have readable names, for the files of a basis and the files of ports. The printf-style formatting of numbered names and the scalar decoders are parameters."
  },
  {
   "property": "C68",
   "status": "partial",
   "theorems": [
    "C68_tags",
    "C68_once",
    "C68_advdiff_refuted"
   ],
   "note": "Exactly one tag per component and variable, component-major, for every configuration; distinct as printed and covering every tag of a topology. Refuted: with separate variable bases the advection-diffusion solver is accepted by the driver but has no variables here, so the run aborts."
  },
  {
   "property": "C69",
   "status": "partial",
   "theorems": [
    "C69_fraction_partial",
    "C69_beyond_refuted"
   ],
   "note": "Monotone fraction, 1 at full size, for sizes up to the number of singular values. Refuted beyond: a larger basis size reports coverage 0."
  },
  {
   "property": "C70",
   "status": "proved",
   "theorems": [
    "C70_random_index_codec"
   ],
   "note": "Random generator, assertions on."
  },
  {
   "property": "C71",
   "status": "partial",
   "theorems": [
    "C71_short_arrays_refuted",
    "C71_short_arrays_out_of_bounds"
   ],
   "note": "False: the arrays' lengths are not compared."
  },
  {
   "property": "C72",
   "status": "partial",
   "theorems": [
    "C72_unknown_component_refuted"
   ],
   "note": "False: comp_name2idx[name] inserts index 0."
  },
  {
   "property": "C73",
   "status": "partial",
   "theorems": [
    "C73_fitting_port_refuted",
    "C73_fitting_port_built_partial"
   ],
   "note": "False: the greedy search may take a vertex another one needs; true when port vertices are at least two tolerances apart."
  },
  {
   "property": "C74",
   "status": "proved",
   "theorems": [
    "C74_inverse_2d",
    "C74_distance_2d",
    "C74_inverse_3d"
   ],
   "note": "Exact reals."
  },
  {
   "property": "C75",
   "status": "partial",
   "theorems": [
    "C75_rotation_applied_refuted",
    "C75_rotation_2d_partial"
   ],
   "note": "False in three dimensions; in two dimensions the images of points on the axes are stated."
  },
  {
   "property": "C76",
   "status": "partial",
   "theorems": [
    "C76_unknown_type_refuted",
    "C76_unknown_type_is_undefined"
   ],
   "note": "False: any out-of-range type is an out-of-range access."
  },
  {
   "property": "C77",
   "status": "proved",
   "theorems": [
    "C77_first_definition"
   ],
   "note": "Records with known component names get those components (unknown: C72)."
  },
  {
   "property": "C78",
   "status": "partial",
   "theorems": [
    "C78_skew_basis_refuted"
   ],
   "note": "False of the code: one sweep of projections does not suffice for a skew basis."
  },
  {
   "property": "C79",
   "status": "partial",
   "theorems": [
    "C79_line_search_descends",
    "C79_line_search_stays_in_record_partial",
    "C79_overrun_refuted"
   ],
   "note": "Descent proved for every objective. Memory safety: exact criterion proved, and an overrun exhibited (objective non-increasing along the direction)."
  },
  {
   "property": "C80",
   "status": "partial",
   "theorems": [
    "C80_loading",
    "C80_reload_after_append_refuted"
   ],
   "note": "Loading and immediate reloading proved; refuted after appending: the vectors are dropped, their number is not."
  },
  {
   "property": "C81",
   "status": "proved",
   "theorems": [
    "C81_basis_sizes",
    "C81_unused_component_stops"
   ],
   "note": "Proved for all inputs."
  },
  {
   "property": "C82",
   "status": "partial",
   "theorems": [
    "C82_no_leak_partial",
    "C82_leaks_refuted"
   ],
   "note": "Proved for at most one solve (and one operator with the direct solver); refuted otherwise."
  },
  {
   "property": "C83",
   "status": "proved",
   "theorems": [
    "C83_relative_error"
   ],
   "note": "Proved for exact arithmetic; norms and errors of a subdomain are given."
  },
  {
   "property": "C84",
   "status": "partial",
   "theorems": [
    "C84_elements_partial",
    "C84_load_returns_saved",
    "C84_port_names",
    "C84_elements_refuted"
   ],
   "note": "Proved for components with a boundary and distinct port names; refuted otherwise: a component without boundary is saved but stops the program when loaded; component names with ':' can make two port names equal, which stops the program."
  },
  {
   "property": "C85",
   "status": "partial",
   "theorems": [
    "C85_set_operator_refuted",
    "C85_same_diagonal_partial"
   ],
   "note": "False of the code: SetOperator keeps the inverses and layout of the old matrix (and a default-built smoother has no blocks). Proved for matrices with the same diagonal blocks."
  },
  {
   "property": "C86",
   "status": "proved",
   "theorems": [
    "C86_training_accuracy"
   ],
   "note": "Nonnegative least squares itself is not modelled: its postcondition (weights nonnegative, within the bounds) is a hypothesis."
  },
  {
   "property": "C87",
   "status": "proved",
   "theorems": [
    "C87_weak_forms"
   ],
   "note": "Shape functions, their derivatives and the geometry at the points are arbitrary data."
  },
  {
   "property": "C88",
   "status": "proved",
   "theorems": [
    "C88_element",
    "C88_face",
    "C88_interface",
    "C88_boundary"
   ],
   "note": "Exact real arithmetic; arbitrary shape data."
  },
  {
   "property": "C89",
   "status": "proved",
   "theorems": [
    "C89_interface",
    "C89_face",
    "C89_boundary",
    "C89_flux",
    "C89_sides"
   ],
   "note": "Exact real arithmetic; arbitrary shape data. The flux uses max(|u1|,|u2|)|n|, not the 2|u.n| of the header comment."
  },
  {
   "property": "C90",
   "status": "proved",
   "theorems": [
    "C90_elements",
    "C90_faces",
    "C90_interfaces"
   ],
   "note": "Convection matrices need the adjugate to be the determinant times the inverse."
  },
  {
   "property": "C91",
   "status": "partial",
   "theorems": [
    "C91_operator",
    "C91_tangent",
    "C91_corner_refuted"
   ],
   "note": "C91_operator and C91_tangent cover the operators the solver builds (no lower right block). C91_corner_refuted shows that with such a block the operator applies it but the gradient leaves it out."
  },
  {
   "property": "C92",
   "status": "proved",
   "theorems": [
    "C92_form",
    "C92_tensor",
    "C92_projection"
   ],
   "note": "Quadrature over the reals; the element kernels are those of the nonlinear integrator with a wind coefficient."
  },
  {
   "property": "C93",
   "status": "proved",
   "theorems": [
    "C93_scheme"
   ],
   "note": "The linear solver, the convection operators and the mass matrices are parameters of the model; the solver is assumed to solve the systems it is given and, without a pressure condition, constants to be in the kernel of the pressure gradient."
  },
  {
   "property": "C94",
   "status": "partial",
   "theorems": [
    "C94_balanced",
    "C94_component",
    "C94_open",
    "C94_flat_refuted",
    "C94_unset_refuted",
    "C94_order_refuted"
   ],
   "note": "Proved for every geometry when the lists agree in order: acceptance implies balance, the component flow correction is exact, open problems are not corrected. Velocities that are not numbers are modelled as None. Refuted: flat inflow sides (0/0 passes the check), unset centre in the first open problem of a run, net flux accepted when the lists differ in order."
  },
  {
   "property": "C95",
   "status": "partial",
   "theorems": [
    "C95_poisson",
    "C95_given",
    "C95_stokes",
    "C95_linelast",
    "C95_linelast_refuted",
    "C95_linelast_zero_refuted"
   ],
   "note": "Proved for Poisson, Stokes and (in full DG mode) elasticity on every mesh. Refuted: elasticity without full DG puts the displacement only into the right-hand side, and its zero-type boundaries are left free."
  },
  {
   "property": "C96",
   "status": "proved",
   "theorems": [
    "C96_collect",
    "C96_roundtrip",
    "C96_unsampled"
   ],
   "note": "Proved from the files to the collected columns and for the round trip sampling, writing, collecting. The snapshot file of libROM is modelled as the columns it was given."
  },
  {
   "property": "C97",
   "status": "proved",
   "theorems": [
    "C97_bases",
    "C97_files",
    "C97_size",
    "C97_sizes"
   ],
   "note": "The POD itself is libROM's and not modelled: the claim is about which columns, which file, which number."
  },
  {
   "property": "C98",
   "status": "partial",
   "theorems": [
    "C98_run",
    "C98_matrix",
    "C98_equations",
    "C98_galerkin",
    "C98_equations_refuted",
    "C98_forms_refuted"
   ],
   "note": "Proved: the run, the assembled matrices, the equations of each step (when the pressure is shifted, under the condition that shifting changes no equation), the orthogonality of the full-order residual. Refuted: without that condition the shift violates the momentum equation (C98_equations_refuted); with the tensor treatment of the nonlinear term the run reads absent data (C98_forms_refuted)."
  },
  {
   "property": "C99",
   "status": "proved",
   "theorems": [
    "C99_pipeline",
    "C99_only",
    "C99_inputs"
   ],
   "note": "Bases, elements and operators are abstract values with named provenance; the numerical content of each is the subject of the other properties. The files of one kind are one entry."
  },
  {
   "property": "C100",
   "status": "partial",
   "theorems": [
    "C100_built",
    "C100_built_refuted",
    "C100_refused_refuted"
   ],
   "note": "Proved for linear solvers and for steady flow with tensors and the base flux; refuted in general: hyper-reduced steady flow with no saved elements builds but can never run (C100_built_refuted), and the Lax-Friedrichs flux on submeshes reads component spaces that do not exist (C100_refused_refuted)."
  },
  {
   "property": "C101",
   "status": "partial",
   "theorems": [
    "C101_solution",
    "C101_error",
    "C101_report",
    "C101_value",
    "C101_full_order",
    "C101_system_refuted",
    "C101_reduced_refuted"
   ],
   "note": "Proved, except that asking a full-order run to save the reduced system uses an absent handler (C101_system_refuted) and asking for the reduced full-order solution with one basis for both variables stops the run (C101_reduced_refuted)."
  },
  {
   "property": "C102",
   "status": "partial",
   "theorems": [
    "C102_number",
    "C102_unified",
    "C102_trained",
    "C102_succeeds",
    "C102_too_many_refuted",
    "C102_load",
    "C102_refuses",
    "C102_stable",
    "C102_other_velocity_refuted"
   ],
   "note": "Two parts are false of the code: a number of supremizers above the number of pressure vectors reads beyond the pressure basis (C102_too_many_refuted), and supremizers trained for fewer velocity vectors are accepted although the enriched basis is not orthonormal (C102_other_velocity_refuted). All else is proved."
  },
  {
   "property": "C103",
   "status": "partial",
   "theorems": [
    "C103_fields",
    "C103_separate_never",
    "C103_separate_refuted"
   ],
   "note": "Proved for a basis shared by the variables. False for separate bases: the run never succeeds (C103_separate_never) and reads beyond the velocity basis (C103_separate_refuted)."
  },
  {
   "property": "C104",
   "status": "partial",
   "theorems": [
    "C104_submesh",
    "C104_first_partial",
    "C104_components_refuted"
   ],
   "note": "Proved for split meshes. With components only as many subdomains as there are components are looked at, and with more components than subdomains the list of meshes is left (C104_components_refuted)."
  },
  {
   "property": "C105",
   "status": "partial",
   "theorems": [
    "C105_vector_diffusion",
    "C105_normal_flux",
    "C105_refused",
    "C105_unit_coefficient_refuted"
   ],
   "note": "Proved for vector diffusion and normal flux. C105_unit_coefficient_refuted: the constructors that take no coefficient leave the coefficient pointer empty, and integrating then dereferences it."
  },
  {
   "property": "C106",
   "status": "proved",
   "theorems": [
    "C106_diffusion",
    "C106_vector_diffusion",
    "C106_elasticity",
    "C106_symmetric",
    "C106_nonnegative",
    "C106_consistent",
    "C106_constants",
    "C106_either_side"
   ],
   "note": "All clauses proved, over the reals and for the values of shape functions, normals and coefficients at the integration points."
  },
  {
   "property": "C107",
   "status": "proved",
   "theorems": [
    "C107_matrix",
    "C107_consistent"
   ],
   "note": "Proved; the two rules are assumed to visit the same points (the face rule and the boundary rule are both passed in)."
  },
  {
   "property": "C108",
   "status": "proved",
   "theorems": [
    "C108_interface",
    "C108_boundary",
    "C108_stress"
   ],
   "note": "Proved for interface, boundary face and stress."
  },
  {
   "property": "C109",
   "status": "proved",
   "theorems": [
    "C109_faces",
    "C109_short_marker"
   ],
   "note": "Proved; a marker shorter than the number of boundary attributes is read past its end (C109_short_marker)."
  },
  {
   "property": "C110",
   "status": "partial",
   "theorems": [
    "C110_temam",
    "C110_friedrichs_square",
    "C110_friedrichs_refuted"
   ],
   "note": "The Temam data are the integral. C110_friedrichs_refuted: the Lax-Friedrichs data carry the face weight twice, so they grow with its square (C110_friedrichs_square)."
  },
  {
   "property": "C111",
   "status": "partial",
   "theorems": [
    "C111_poisson",
    "C111_stokes",
    "C111_elasticity",
    "C111_elasticity_projection",
    "C111_elasticity_refuted",
    "C111_components_refuted"
   ],
   "note": "proved for the Poisson and Stokes solvers, and for elasticity with the full DG form, displacement or traction conditions and no more components than subdomains; without the full DG form (the default) the elasticity elements add boundary terms that the full-order matrix lacks, and components that outnumber the subdomains index the Lame coefficients out of range (witnesses)"
  },
  {
   "property": "C112",
   "status": "proved",
   "theorems": [
    "C112_operator",
    "C112_built",
    "C112_functions"
   ],
   "note": "The Poisson boundary and interface terms are those of C111."
  },
  {
   "property": "C113",
   "status": "partial",
   "theorems": [
    "C113_computed",
    "C113_stored",
    "C113_roundtrip",
    "C113_parameters_refuted",
    "C113_converged_refuted"
   ],
   "note": "C113_parameters_refuted: with save_flow and load_flow both on, the flow of the first problem is saved and then loaded for every later set of parameters (the file is not tied to parameters). C113_converged_refuted: the result of the Stokes solve is not looked at, an unconverged flow is saved and used."
  },
  {
   "property": "C114",
   "status": "partial",
   "theorems": [
    "C114_alive",
    "C114_stale_refuted",
    "C114_leak_refuted"
   ],
   "note": "C114_stale_refuted: setting the next problem deletes the coefficients the operators of the previous one refer to; assembling again without building is undefined. C114_leak_refuted: a Stokes solver replaced by the next one, and a function replaced by another, are never deleted."
  },
  {
   "property": "C115",
   "status": "proved",
   "theorems": [
    "C115_fresh",
    "C115_solved"
   ],
   "note": "The direct and iterative solvers are a contract: what they yield and whether they report convergence."
  },
  {
   "property": "C116",
   "status": "partial",
   "theorems": [
    "C116_flow",
    "C116_skipped_refuted",
    "C116_override_refuted"
   ],
   "note": "C116_skipped_refuted: domain_offset/domain_interval leave some collections uncreated, the advection-diffusion solver asserts that all exist although saving them would work. C116_override_refuted: a function given after a flow was obtained is used, but the old flow is drawn."
  },
  {
   "property": "C117",
   "status": "partial",
   "theorems": [
    "C117_full",
    "C117_reduced",
    "C117_exact",
    "C117_trained",
    "C117_dirichlet_refuted"
   ],
   "note": "The last claim holds where every boundary is open or a wall (C117_trained). It fails where a velocity is given (C117_dirichlet_refuted): the rule used there was trained on the integrand without data."
  },
  {
   "property": "C118",
   "status": "partial",
   "theorems": [
    "C118_roundtrip",
    "C118_again",
    "C118_duplicate",
    "C118_base_file",
    "C118_operator_refuted"
   ],
   "note": "The last claim holds for files of the convective operator (C118_base_file). A file of the flux operator is accepted by the convective operator, whose integrand then uses the rule of another integrand (C118_operator_refuted)."
  },
  {
   "property": "C119",
   "status": "proved",
   "theorems": [
    "C119_subdomains",
    "C119_interfaces",
    "C119_attributes",
    "C119_mode"
   ],
   "note": "Two-dimensional meshes; MFEM's numbering of faces and submeshes as documented. Attributes that leave a gap give subdomains without elements (example sx_gap); shared edges that carry a boundary element of the mesh get no port (C22_internal_boundary_refuted)."
  },
  {
   "property": "C120",
   "status": "proved",
   "theorems": [
    "C120_same_points",
    "C120_not_itself"
   ],
   "note": "Straight triangles and bilinear quadrilaterals in the plane."
  },
  {
   "property": "C121",
   "status": "proved",
   "theorems": [
    "C121_transfer"
   ],
   "note": "Fields given element by element (discontinuous spaces)."
  },
  {
   "property": "C122",
   "status": "proved",
   "theorems": [
    "C122_same_points",
    "C122_placements"
   ],
   "note": "Straight triangles and bilinear quadrilaterals in the plane; coordinates as stored, with a bound on their rounding."
  },
  {
   "property": "C123",
   "status": "partial",
   "theorems": [
    "C123_misplaced_refuted"
   ],
   "note": "False: nothing compares the two tables."
  },
  {
   "property": "C124",
   "status": "partial",
   "theorems": [
    "C124_loaded",
    "C124_refused_partial",
    "C124_missing_file_refuted",
    "C124_no_nodes_refuted",
    "C124_one_dimension_refuted"
   ],
   "note": "Missing meshes, meshes without nodes and one-dimensional meshes end in the use of a null pointer (C124_*_refuted); what is accepted is right (C124_loaded) and different nodes are refused (C124_refused_partial)."
  },
  {
   "property": "C125",
   "status": "proved",
   "theorems": [
    "C125_tensors_follow_names",
    "C125_missing_component"
   ],
   "note": "Component files of tensors as HDF5 groups; any numbering on both sides. Names are single path segments."
  },
  {
   "property": "C126",
   "status": "partial",
   "theorems": [
    "C126_never_twice",
    "C126_all_released",
    "C126_workflows",
    "C126_no_handler_refuted",
    "C126_other_level_refuted",
    "C126_loaded_again_refuted",
    "C126_built_without_refuted"
   ],
   "note": "Proved: no double release for any sequence of calls as long as elements are assembled only at the component level; complete release if each member is set at most once, which the workflows do. Refuted in general: null handler in the destructor when use_rom is set but InitROMHandler was not called; double free when elements are assembled at the global level; leak when elements are loaded twice or when use_rom is off."
  },
  {
   "property": "C127",
   "status": "partial",
   "theorems": [
    "C127_same_name",
    "C127_other_name_refuted"
   ],
   "note": "Proved when nothing else is saved in between. Refuted: the tensors go to the file of the configured prefix whatever name is given, so saving under a second name replaces the tensors of the first."
  },
  {
   "property": "C128",
   "status": "partial",
   "theorems": [
    "C128_frozen",
    "C128_constant_partial",
    "C128_pulsating_refuted"
   ],
   "note": "The statement is false of the code: the right-hand side is assembled once, before the run (stokes_solver.cpp:372-394), and SetTime (unsteady_ns_solver.cpp:390-401) only turns the clocks. C128_frozen says exactly what is computed; C128_pulsating_refuted is the counterexample; C128_constant_partial holds when the data do not vary."
  },
  {
   "property": "C129",
   "status": "partial",
   "theorems": [
    "C129_cfl",
    "C129_check_partial",
    "C129_unnoticed_refuted"
   ],
   "note": "The CFL part is proved. The NaN check looks at Min and Max, which start from the first entry and compare; MFEM's serial reductions are modelled from knowledge of MFEM (its source is not in the repository)."
  },
  {
   "property": "C130",
   "status": "partial",
   "theorems": [
    "C130_initial_partial",
    "C130_lifetime",
    "C130_velocity_only_refuted"
   ],
   "note": "False for a problem that gives only the initial velocity (ic_ptr of size one is ignored); proved otherwise."
  },
  {
   "property": "C131",
   "status": "partial",
   "theorems": [
    "C131_iterations",
    "C131_at_rest",
    "C131_solution_refuted",
    "C131_flag_refuted"
   ],
   "note": "Proved for runs that return: descent of the objective, clamped conjugate directions, first iterate that meets a tolerance, and the flag if it was down before. Refuted: a run that starts at a point with zero gradient (the solution, for one) divides by zero and its line search overruns its record; the flag is never lowered, so a second run of the same optimizer that has not converged still says it has."
  },
  {
   "property": "C132",
   "status": "proved",
   "theorems": [
    "C132_trained",
    "C132_unsampled",
    "C132_evaluated"
   ],
   "note": "The optimizer of libROM is taken to find a solution of the non-negative least squares problem that is entrywise within the bounds whenever one exists (C132_trained assumes it; it is shown that the full rule is one, so the assumption can be met). The default termination criterion of the code is on the l2 norm, which does not imply the entrywise bound. The faces of a port are taken to be those of its reference port."
  },
  {
   "property": "C133",
   "status": "proved",
   "theorems": [
    "C133_solution",
    "C133_converged",
    "C133_restart",
    "C133_linear"
   ],
   "note": "The correction steps of the Newton (or quasi-Newton) iteration are given by an arbitrary function of all iterates so far and the residual; the stopping rule of MFEM's iteration is modelled from knowledge of MFEM. That a constant pressure exerts no force is a hypothesis on the assembled matrix (it holds without pressure boundary conditions). Whether the iteration converges is not claimed, except for linear equations."
  },
  {
   "property": "C134",
   "status": "partial",
   "theorems": [
    "C134_solution",
    "C134_restart",
    "C134_preconditioner",
    "C134_preconditioner_refuted",
    "C134_unconverged_refuted",
    "C134_names"
   ],
   "note": "Proved for Newton's iteration: start, stopping rule, lift, restart (C134_solution, C134_restart). Refuted: with any preconditioner configured the steady flow solver never gives a reduced result, because it passes none and NonlinearSolve asserts there is one (C134_preconditioner, C134_preconditioner_refuted); a solve that used all its iterations returns like a converged one, nothing tells the caller (C134_unconverged_refuted). The iterations of the other solver, cg, are those of C131, which is undefined when restarted at a solution (C131_at_rest)."
  },
  {
   "property": "C135",
   "status": "partial",
   "theorems": [
    "C135_positions",
    "C135_space",
    "C135_plane_refuted",
    "C135_guarded",
    "C135_other_ranks",
    "C135_empty_refuted"
   ],
   "note": "Proved: number, order and coordinates of the tables, no other tables, who writes and when, independence of the memory in space. Refuted: in the plane the third column is uninitialised memory (the local array x[3] is only set in its first two entries, all three are written); a rule without samples dereferences a null matrix instead of giving an empty table."
  },
  {
   "property": "C136",
   "status": "partial",
   "theorems": [
    "C136_momentum",
    "C136_solution",
    "C136_pressure_refuted"
   ],
   "note": "Proved: momentum to the tolerance of the velocity solver for any pressure solver; both equations, the mean of the pressures and the defect of incompatible data for exact inner solvers. Refuted: the convergence of the pressure solve is not checked (the check is commented out), so a run can return a state that violates the divergence equations. The iterative solvers and the multigrid preconditioner of MFEM and Hypre are functions with assumed soundness; floating point is not modelled."
  },
  {
   "property": "C137",
   "status": "partial",
   "theorems": [
    "C137_components",
    "C137_mismatch",
    "C137_ports",
    "C137_description",
    "C137_unknown",
    "C137_short_refuted",
    "C137_short",
    "C137_dropped_refuted"
   ],
   "note": "Proved: the contents of all lists and descriptions, the numbering, the construction from descriptions, the refusal of unequal numbers of types and places. Refuted: the numbers of columns are not checked, so a table of places with fewer than six columns is read past its end (shown for all such files); ports are dropped silently if the file lists no reference ports. Strings are assumed to be stored faithfully and a description to pass through its YAML node unchanged."
  },
  {
   "property": "C138",
   "status": "partial",
   "theorems": [
    "C138_parameters",
    "C138_history",
    "C138_random",
    "C138_same_key_refuted",
    "C138_nested_key_refuted",
    "C138_beyond_refuted",
    "C138_paths",
    "C138_files"
   ],
   "note": "Proved for parameters that name separate options. Refuted: two parameters naming the same option are accepted and grid points become the same computation (C138_same_key_refuted); nested options stop the program at the second sample only (C138_nested_key_refuted); indices beyond the last sample are accepted (C138_beyond_refuted). Texts of numbers and snprintf are parameters of the model; what the solver of a sample does to the configuration is not modelled."
  },
  {
   "property": "C139",
   "status": "partial",
   "theorems": [
    "C139_layout",
    "C139_error",
    "C139_zero",
    "C139_scaled",
    "C139_uncompared_refuted",
    "C139_snapshots",
    "C139_unified_snapshots"
   ],
   "note": "partial: with visualize_error but without a comparison (and always while generating samples) the error fields saved are uninitialised memory (C139_uncompared_refuted). ComputeLpError is external and taken as the quadrature sum it documents; a solution with zero norm is excluded (the quotient is 0/0)."
  },
  {
   "property": "C140",
   "status": "partial",
   "theorems": [
    "C140_exact",
    "C140_unsymmetric",
    "C140_poisson",
    "C140_elasticity",
    "C140_velocity",
    "C140_flow",
    "C140_sigma_refuted",
    "C140_reduced",
    "C140_reduced_default_refuted",
    "C140_projected",
    "C140_reduced_poisson",
    "C140_reduced_elasticity",
    "C140_reduced_stokes",
    "C140_alpha_refuted",
    "C140_flow_sigma_refuted"
   ],
   "note": "partial: with any discretization/interface/sigma (alpha) other than -1 the Poisson, elasticity and Stokes matrices are unsymmetric but still declared symmetric, and the direct solve silently solves another system (C140_sigma_refuted, C140_alpha_refuted, C140_flow_sigma_refuted, for all parameters and penalties); reduced systems are declared spd by default, also those of advection-diffusion and Navier-Stokes (C140_reduced_default_refuted), while projections of symmetric systems are solved exactly (C140_projected and its instances). MUMPS is external: assumed to read the lower triangle of matrices declared symmetric and to solve what it reads; pivoting of indefinite matrices declared positive definite is not modelled."
  },
  {
   "property": "C141",
   "status": "partial",
   "theorems": [
    "C141_poisson",
    "C141_stokes",
    "C141_new",
    "C141_held_refuted",
    "C141_elasticity_refuted"
   ],
   "note": "partial: the Poisson and flow solvers warn exactly when no Dirichlet condition is imposed (C141_poisson, C141_stokes), under the hypotheses of C95 and when every boundary is on some subdomain; a problem for all boundaries set after one whose boundaries are natural imposes nothing and gives no warning (C141_held_refuted, a consequence of C66); the elasticity solver never warns (C141_elasticity_refuted). Printing is not modelled: a warning is a value."
  }
 ]
}