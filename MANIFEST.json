{
 "claims": [
  {
   "property": "C01",
   "status": "proved",
   "theorems": [
    "C01_face_swap_exchanges_sides",
    "C01_face_swap_involutive",
    "C01_face_swap_describes_inverse"
   ],
   "note": "face_swap in 2D and 3D for every face pair and orientation; the 2D link to the inverse transformation uses the documented behaviour of the external p4est_expand_face_transform"
  },
  {
   "property": "C02",
   "status": "proved",
   "theorems": [
    "C02_transform_face_across_blocks",
    "C02_same_position_is_unique",
    "C02_transform_face_inverse",
    "C02_transform_face_same_block",
    "C02_ghost_layers_map_to_interior_layers"
   ],
   "note": "2D and 3D, all levels, positions, axis permutations, reversals, face codes, both bases; binary64 exactness is derived from the rounding function being exact on representable values, for 2^level*m <= 2^49"
  },
  {
   "property": "C03",
   "status": "proved",
   "theorems": [
    "C03_transform_face2_across_blocks",
    "C03_transform_face2_same_block"
   ],
   "note": "2D and 3D; every output slot is written once and holds the fine cell centered on the corresponding child of the coarse cell"
  },
  {
   "property": "C04",
   "status": "proved",
   "theorems": [
    "C04_transform_corner",
    "C04_transform_corner2",
    "C04_corner_swap"
   ],
   "note": "transform_corner and transform_corner2, inside a block and between equally oriented blocks"
  },
  {
   "property": "C05",
   "status": "proved",
   "theorems": [
    "C05_face_neighbors",
    "C05_answer_determines",
    "C05_normal_match",
    "C05_boundary_type",
    "C05_corner_neighbors"
   ],
   "note": "Against a global forest and the documented p4est mesh encoding (Spec_Mesh.represents), 2D and 3D."
  },
  {
   "property": "C06",
   "status": "proved",
   "theorems": [
    "C06_iterate_level",
    "C06_iterate_patches",
    "C06_all_levels"
   ],
   "note": "Level, patch and all-level iteration over every domain built by the modelled fclaw2d_domain_new, 2D and 3D."
  },
  {
   "property": "C07",
   "status": "proved",
   "theorems": [
    "C07_iterate_families",
    "C07_families_disjoint"
   ],
   "note": "Family iteration over every constructed domain reports exactly the complete families; families are disjoint."
  },
  {
   "property": "C08",
   "status": "proved",
   "theorems": [
    "C08_iterate_adapted",
    "C08_every_old_leaf_in_one_call",
    "C08_every_new_leaf_in_one_call"
   ],
   "note": "iterate_adapted for every sequence of keep/refine/coarsen outcomes per block."
  },
  {
   "property": "C09",
   "status": "proved",
   "theorems": [
    "C09_iterate_partitioned",
    "C09_partition_transfer",
    "C09_local_numbering"
   ],
   "note": "iterate_partitioned and the transfer callback for all old/new ownership intervals; the window returned by p4est_wrap_partition and the byte transfer of packed patches are external and assumed by their contract."
  },
  {
   "property": "C10",
   "status": "proved",
   "theorems": [
    "C10_marks_defined",
    "C10_marks",
    "C10_bounds",
    "C10_regrid_exact",
    "C10_regrid_range"
   ],
   "note": "Any program of marks from an unmarked domain: requested level and flag of every patch given exactly; bounds [0, P4EST_QMAXLEVEL]; regridding tags exact for arbitrary answers of the user tag functions, and requests stay in [minlevel, maxlevel]."
  },
  {
   "property": "C11",
   "status": "proved",
   "theorems": [
    "C11_flags",
    "C11_code_order",
    "C11_order_independent",
    "C11_adapt",
    "C11_refine_kept",
    "C11_range",
    "C11_off",
    "C11_withdrawn"
   ],
   "note": "All forests, neighbor relations and visiting orders under stated mesh facts (2:1 balance, ghosts mirror owners) and delivery of ghost target levels; effect on the mesh through a stated contract of p4est_wrap_adapt."
  },
  {
   "property": "C12",
   "status": "proved",
   "theorems": [
    "C12_call_completes",
    "C12_subcycled_steps",
    "C12_not_subcycled_steps",
    "C12_coarse_level_brackets_step",
    "C12_returned_cfl"
   ],
   "note": "exact rational times; subcycled and not; any level range, any process-local minimum level"
  },
  {
   "property": "C13",
   "status": "proved",
   "theorems": [
    "C13_alpha_is_half",
    "C13_ghost_update_synchronised",
    "C13_final_ghost_update"
   ],
   "note": "exact rational times; also that every intermediate ghost exchange is synchronised"
  },
  {
   "property": "C14",
   "status": "proved",
   "theorems": [
    "C14_output_times",
    "C14_never_past_output_time",
    "C14_history",
    "C14_terminates",
    "C14_fixed_step_refuted"
   ],
   "note": "exact rational times, variable step; any CFL history; termination for CFL numbers bounded by a multiple of the step; with a fixed step output times are overshot (C14_fixed_step_refuted)"
  },
  {
   "property": "C15",
   "status": "proved",
   "theorems": [
    "C15_outstyle_3",
    "C15_outstyle_4",
    "C15_initial_frame",
    "C15_zero_interval_refuted"
   ],
   "note": "styles 3 and 4; nstep = 0 divides by zero in the code (C15_zero_interval_refuted)"
  },
  {
   "property": "C16",
   "status": "proved",
   "theorems": [
    "C16_restore_gives_saved",
    "C16_saved_copy_untouched",
    "C16_save_restore_defined",
    "C16_boxes_are_values",
    "C16_no_sharing_no_leak",
    "C16_copy_constructor_refuted",
    "C16_debug_self_assignment_refuted"
   ],
   "note": "Array boxes refine independent values; save/restore exact for every history; copy constructor and debug self-assignment refuted as side findings."
  },
  {
   "property": "C17",
   "status": "proved",
   "theorems": [
    "C17_pack_size",
    "C17_roundtrip",
    "C17_strips",
    "C17_small_patch_refuted"
   ],
   "note": "All sizes with 2*refratio*mbc <= mx, my; the smaller patches accepted by the option check are refuted by C17_small_patch_refuted. The solver's routine for extra fields is assumed to copy them."
  },
  {
   "property": "C18",
   "status": "proved",
   "theorems": [
    "C18_timeinterp",
    "C18_ghosts_kept",
    "C18_linear_exact",
    "C18_between"
   ],
   "note": "Exact arithmetic."
  },
  {
   "property": "C19",
   "status": "proved",
   "theorems": [
    "C19_covered_once",
    "C19_average2coarse",
    "C19_mass",
    "C19_odd_size_refuted",
    "C19_not_square_refuted"
   ],
   "note": "For even mx = my; each cell covered once, value is the (area weighted) mean, other cells untouched, mass equal. Odd sizes (accepted by the option check) and mx <> my are refuted by example."
  },
  {
   "property": "C20",
   "status": "proved",
   "theorems": [
    "C20_interpolate2fine",
    "C20_roundtrip",
    "C20_constant",
    "C20_one_ghost_layer_refuted",
    "C20_mapped_range_refuted"
   ],
   "note": "For even sizes and mbc >= 2. Values in exact arithmetic. mbc = 1 writes out of bounds (refuted); range property does not hold on mapped grids in general (refuted), constants are preserved when areas add up."
  },
  {
   "property": "C21",
   "status": "proved",
   "theorems": [
    "C21_extremum",
    "C21_increasing",
    "C21_decreasing",
    "C21_bounded",
    "C21_symmetric",
    "C21_linear"
   ],
   "note": "Limiter mth = 5 as used by the interpolation routines, exact arithmetic."
  },
  {
   "property": "C22",
   "status": "proved",
   "theorems": [
    "C22_copy_face"
   ],
   "note": "Same-size neighbor in the same block or across a block boundary with any orientation; index transformation with rounding."
  },
  {
   "property": "C23",
   "status": "proved",
   "theorems": [
    "C23_average_face",
    "C23_every_ghost_cell_once",
    "C23_both_neighbors",
    "C23_odd_size_refuted"
   ],
   "note": "Even mx = my, any rounding of the index transformation; odd sizes refuted by example."
  },
  {
   "property": "C24",
   "status": "proved",
   "theorems": [
    "C24_new",
    "C24_step",
    "C24_runs",
    "C24_cells",
    "C24_balance",
    "C24_history",
    "C24_conserved",
    "C24_one_ghost_layer_refuted"
   ],
   "note": "step, correction of every cell, balance of a synchronisation on any distribution of the patches, and conservation over any history; refuted for one ghost layer"
  },
  {
   "property": "C25",
   "status": "proved",
   "theorems": [
    "C25_pack_registers",
    "C25_reset",
    "C25_complete"
   ],
   "note": "pack/unpack of the registers, and which registers a synchronisation clears"
  },
  {
   "property": "C26",
   "status": "proved",
   "theorems": [
    "C26_refine_iff",
    "C26_coarsen_iff",
    "C26_never_coarsen_initially",
    "C26_never_coarsen_threshold",
    "C26_always_refine",
    "C26_builtin_usable",
    "C26_refine_builtin",
    "C26_coarsen_builtin",
    "C26_no_conflict",
    "C26_threshold_variable_refuted"
   ],
   "note": "For any user test that depends only on what it is shown (usable): tag = 1 iff the test holds at some visited cell, where shows says what is passed, including running min/max over everything seen. For the four built-in criteria this is reduced to statements on the data; coarsening never happens during initialisation or with a non-positive threshold; no family tagged for coarsening contains a patch tagged for refinement if coarsen_threshold <= refine_threshold. Refuted: threshold_variable > meqn is not rejected and reads out of bounds. Exact rational arithmetic."
  },
  {
   "property": "C27",
   "status": "proved",
   "theorems": [
    "C27_delivery",
    "C27_progress",
    "C27_released",
    "C27_out_of_order",
    "C27_untouched",
    "C27_below_range_overwritten",
    "C27_delete_inside_accepted"
   ],
   "note": "Interleaving model of the exchange calls of all processes with a heap; p4est ghost exchange as contract (mirror data copied at begin, ghost memory written at end). C27_below_range_overwritten and C27_delete_inside_accepted show behaviour outside the claim."
  },
  {
   "property": "C28",
   "status": "proved",
   "theorems": [
    "C28_indirect",
    "C28_deliverable"
   ],
   "note": "indirect_begin on all processes, exchange contract (delivered), indirect_end and the two queries; the p4est exchange and sc_hash are contracts."
  },
  {
   "property": "C29",
   "status": "proved",
   "theorems": [
    "C29_exclusion",
    "C29_order",
    "C29_progress",
    "C29_terminates",
    "C29_repeated_refuted"
   ],
   "note": "transition system of the message passing; exclusion, rank order, progress, termination; overlap of repeated sections refuted"
  },
  {
   "property": "C30",
   "status": "proved",
   "theorems": [
    "C30_search_points",
    "C30_exactly_once"
   ],
   "note": "p4est_search_local as contract: any search tree whose branches contain the local leaves below them, in any order. Finite coordinates; comparisons with exact powers of two under any rounding exact on representable numbers."
  },
  {
   "property": "C31",
   "status": "proved",
   "theorems": [
    "C31_integrals",
    "C31_partition_independent"
   ],
   "note": "Exact (rational) sums; callback consistent with nesting (a quadrant around a contributing leaf is reported as intersected); p4est_search_local as contract as for C30."
  },
  {
   "property": "C32",
   "status": "proved",
   "theorems": [
    "C32_answers",
    "C32_no_deadlock",
    "C32_terminates",
    "C32_serial",
    "C32_several_processes_refuted"
   ],
   "note": "For every interleaving: answers, freedom from deadlock (also with rendezvous sends), termination, no failed assertion, and the build without MPI. Contributions of several processes: refuted, only the lowest contributing process answers."
  },
  {
   "property": "C33",
   "status": "proved",
   "theorems": [
    "C33_scalars_read_back",
    "C33_strings_read_back",
    "C33_null_string_read_back"
   ],
   "note": "Scalars, strings and NULL strings read back from the byte buffer, using exactly the announced bytes."
  },
  {
   "property": "C34",
   "status": "proved",
   "theorems": [
    "C34_options_read_back",
    "C34_clawpatch_options_read_back",
    "C34_clawpack46_options_read_back",
    "C34_regression_check_refuted"
   ],
   "note": "Three option packages read back; the original claim including regression_check is refuted (C34_regression_check_refuted) and the property statement says so."
  },
  {
   "property": "C35",
   "status": "proved",
   "theorems": [
    "C35_global_read_back",
    "C35_unregistered_aborts"
   ],
   "note": "Global state with every registered option package reads back; an unregistered package aborts."
  },
  {
   "property": "C36",
   "status": "proved",
   "theorems": [
    "C36_last_insertion_wins",
    "C36_destroyed_when_replaced",
    "C36_each_destroyed_once",
    "C36_iterate_and_size"
   ],
   "note": "For every history and every visiting order of the table."
  },
  {
   "property": "C37",
   "status": "proved",
   "theorems": [
    "C37_cumulative",
    "C37_aborts_unless_alternating",
    "C37_misuse_aborts"
   ],
   "note": "Exact rational clock readings."
  },
  {
   "property": "C38",
   "status": "proved",
   "theorems": [
    "C38_exact_result",
    "C38_zero_exponent",
    "C38_powers_of_two",
    "C38_no_overflow_refuted",
    "C38_wrapping_arithmetic"
   ],
   "note": "Exact characterisation of when the loop overflows; original claim refuted (C38_no_overflow_refuted); wrap-around variant proved."
  },
  {
   "property": "C39",
   "status": "proved",
   "theorems": [
    "C39_samples",
    "C39_times",
    "C39_spacing",
    "C39_zero_buffer_refuted"
   ],
   "note": "C39_samples: for any number of processes, buffer length >= 1, order of execution within each collective call and any migration, each gauge file receives exactly one line per sampling time in call order; C39_times/C39_spacing: sampling times are a function of the update times only, within [t1,t2] and spaced; collective calls are separated by global reductions (model assumption). C39_zero_buffer_refuted: gauge_buffer_length = 0 is accepted by the options and overflows the buffer."
  },
  {
   "property": "C40",
   "status": "proved",
   "theorems": [
    "C40_slots",
    "C40_brick",
    "C40_shared_edge_refuted",
    "C40_no_brick_refuted",
    "C40_outside_refuted"
   ],
   "note": "C40_slots: slots, offsets and coordinates are right if every gauge lies in exactly one block; C40_brick: this is so for gauges off the inner edges of a brick. Refuted otherwise: C40_shared_edge_refuted (gauge on an edge between blocks overflows the coordinate array), C40_no_brick_refuted (several blocks without brick), C40_outside_refuted."
  },
  {
   "property": "C41",
   "status": "proved",
   "theorems": [
    "C41_layout",
    "C41_read_back",
    "C41_refused",
    "C41_padding_refuted",
    "C41_open_write"
   ],
   "note": "Layout and round trip for all sequences of calls whose sizes are not 15 modulo 16 (C41_padding_refuted shows the failure there). The reading functions of the source are disabled by #if 0; the reader is part of the specification."
  },
  {
   "property": "C42",
   "status": "proved",
   "theorems": [
    "C42_partition_independent",
    "C42_own_range",
    "C42_ranges_tile"
   ],
   "note": "For every partition, order of the processes and I/O mode the bytes are the same; ranges of the processes tile the data."
  },
  {
   "property": "C43",
   "status": "proved",
   "theorems": [
    "C43_codes",
    "C43_io_refuted",
    "C43_public_message_refuted",
    "C43_public_message",
    "C43_block_agrees",
    "C43_field_agrees",
    "C43_field_short",
    "C43_create_agrees",
    "C43_input_agrees",
    "C43_open_write_agrees",
    "C43_close_agrees",
    "C43_short_header_refuted",
    "C43_late_error_refuted",
    "C43_count_per_tree_refuted",
    "C43_short_file_header_refuted",
    "C43_short_data_refuted"
   ],
   "note": "Agreement of all processes for errors of collective calls and section headers; codes and messages per class. Refuted parts: other I/O class, public messages, short writes, errors after the header, error path of the count-per-tree block, short file header."
  },
  {
   "property": "C44",
   "status": "proved",
   "theorems": [
    "C44_domain_new_represents_forest",
    "C44_ghost_patches",
    "C44_positions_complete"
   ],
   "note": "fclaw2d_domain_new: geometry, levels, child numbers, sibling/boundary/mirror flags, level chains, exchange list, ghosts. Block vertices, is_boundary and the MPI reduction of levels not modelled."
  },
  {
   "property": "C45",
   "status": "proved",
   "theorems": [
    "C45_whole_run",
    "C45_reachable",
    "C45_patch_number_refuted"
   ],
   "note": "For all histories p4est may produce (legal). The recorded patch number goes stale: refuted with a witness."
  },
  {
   "property": "C46",
   "status": "proved",
   "theorems": [
    "C46_ghost_update",
    "C46_values_current",
    "C46_values_exist",
    "C46_deterministic",
    "C46_stale_copy_refuted"
   ],
   "note": "C46_ghost_update: the whole update on all processes, symbolic contents by region. C46_values_exist/_values_current: which regions are covered and that contents are current. C46_deterministic: overlap, old contents and buffers do not matter. C46_stale_copy_refuted: before the exchange stale remote copies are read. Region footprints of the Fortran routines are stated in Model_FillExec.v; forest balance and completeness of the ghost layer are hypotheses (p4est)."
  },
  {
   "property": "C47",
   "status": "proved",
   "theorems": [
    "C47_corner_blocks",
    "C47_remote_coarse_refuted"
   ],
   "note": "C47_corner_blocks; the exception is real: C47_remote_coarse_refuted."
  },
  {
   "property": "C48",
   "status": "proved",
   "theorems": [
    "C48_tiling",
    "C48_rounded",
    "C48_single_tree_refuted"
   ],
   "note": "C48_tiling in exact arithmetic, C48_rounded for any monotone rounding exact on representable numbers; C48_single_tree_refuted: without a brick the assertion compares a pointer with 0 and always fails."
  },
  {
   "property": "C49",
   "status": "proved",
   "theorems": [
    "C49_int_array",
    "C49_int_length",
    "C49_double_array",
    "C49_double_length",
    "C49_int_range_refuted",
    "C49_solver_arrays"
   ],
   "note": "strtol modelled exactly (base 10, saturation, low 32 bits); strtod for decimal numbers as exact rationals, hexadecimal, inf and nan not modelled; C49_int_range_refuted: numbers outside int are silently changed"
  },
  {
   "property": "C50",
   "status": "proved",
   "theorems": [
    "C50_options_check",
    "C50_options_check_3d",
    "C50_exact_division_refuted",
    "C50_clawpatch_check",
    "C50_usable_accepted",
    "C50_unusable_refuted"
   ],
   "note": "exact rational arithmetic; undefined conversions are None; C50_exact_division_refuted and C50_unusable_refuted show what the checks let through"
  },
  {
   "property": "C51",
   "status": "proved",
   "theorems": [
    "C51_status",
    "C51_processes_agree",
    "C51_save_failure_refuted",
    "C51_requests"
   ],
   "note": "status of loading, parsing and saving are inputs; C51_save_failure_refuted: the root alone stops when saving fails"
  },
  {
   "property": "C52",
   "status": "proved",
   "theorems": [
    "C52_regrid",
    "C52_initial",
    "C52_partition",
    "C52_conserves"
   ],
   "note": "Numerical interpolation and averaging are parameters (their own properties are C19-C23); the buffers received are an input."
  },
  {
   "property": "C53",
   "status": "proved",
   "theorems": [
    "C53_interpolate_face",
    "C53_filled",
    "C53_range",
    "C53_mean",
    "C53_affine",
    "C53_not_square_refuted"
   ],
   "note": "square patches; for mx different from my the inner loop along x-faces has the wrong bound (C53_not_square_refuted)"
  },
  {
   "property": "C54",
   "status": "proved",
   "theorems": [
    "C54_copy_corner",
    "C54_average_corner",
    "C54_interpolate_corner",
    "C54_deep_block_corner_refuted"
   ],
   "note": "square patches; where four blocks meet, interpolation needs 2^level*m <= 2^29 (C54_deep_block_corner_refuted)"
  },
  {
   "property": "C55",
   "status": "proved",
   "theorems": [
    "C55_values",
    "C55_unchanged",
    "C55_wall",
    "C55_again",
    "C55_level",
    "C55_scalar_wall_refuted"
   ],
   "note": "default boundary routine of clawpack 4.6; a wall with too few equations is C55_scalar_wall_refuted"
  },
  {
   "property": "C56",
   "status": "proved",
   "theorems": [
    "C56_history",
    "C56_partition"
   ],
   "note": "exact arithmetic; the 2-norm before the square root; the user's error routine is an arbitrary function"
  },
  {
   "property": "C57",
   "status": "proved",
   "theorems": [
    "C57_values",
    "C57_one_grid",
    "C57_conservative",
    "C57_quiet",
    "C57_limiter",
    "C57_work",
    "C57_fwaves",
    "C57_fwaves_refuted",
    "C57_one_ghost_layer_refuted",
    "C57_order_refuted"
   ],
   "note": "values with any arithmetic and any Riemann solver functions; conservation, constants, limiters and f-waves in exact arithmetic; f-waves with a capacity function, one ghost layer with a limiter and order 3 2 refuted"
  },
  {
   "property": "C58",
   "status": "proved",
   "theorems": [
    "C58_one_grid",
    "C58_ghosts_given",
    "C58_ghost_cells",
    "C58_same_results",
    "C58_conserved",
    "C58_ghosts_not_filled_refuted"
   ],
   "note": "uniform meshes, clawpack 4.6 in 2D, no source terms, no metric changes; any arithmetic (conservation: exact); composition of the models of C17-C25, C28, C36, C53-C55, C57; run without ghost filling after initialization refuted"
  },
  {
   "property": "C59",
   "status": "proved",
   "theorems": [
    "C59_return",
    "C59_file",
    "C59_partition",
    "C59_solution",
    "C59_several_processes_refuted",
    "C59_separation_refuted",
    "C59_large_patches_refuted",
    "C59_instance",
    "C59_partition_instance"
   ],
   "note": "C59_file, C59_partition, C59_solution, C59_return for parallel output or one process. Refuted: several processes without MPI I/O (C59_several_processes_refuted), an effect of vtkspace (C59_separation_refuted), patches whose byte counts do not fit into int (C59_large_patches_refuted)."
  },
  {
   "property": "C60",
   "status": "proved",
   "theorems": [
    "C60_cubedsphere",
    "C60_fivepatch",
    "C60_squareddisk",
    "C60_pillowdisk",
    "C60_pillowdisk5",
    "C60_pillowsphere",
    "C60_pillowsphere_ghost",
    "C60_annulus",
    "C60_latlong",
    "C60_torus",
    "C60_twisted_torus",
    "C60_bilinear",
    "C60_rotation",
    "C60_scale_shift",
    "C60_rotation_about_x_refuted",
    "C60_pillowdisk_centre_refuted"
   ],
   "note": "exact real arithmetic; the squared disk and the bilinear map are not claimed to cover. Refuted: the pillow disk reaches its centre (C60_pillowdisk_centre_refuted), the option phi turns about the x axis (C60_rotation_about_x_refuted). Uses the standard library's axioms of the real numbers."
  },
  {
   "property": "C61",
   "status": "proved",
   "theorems": [
    "C61_build",
    "C61_mesh",
    "C61_area",
    "C61_history",
    "C61_conservation",
    "C61_total_area",
    "C61_affine_area",
    "C61_normals",
    "C61_edges",
    "C61_flat",
    "C61_plane_not_declared_flat",
    "C61_curved",
    "C61_neighbours",
    "C61_not_square_refuted"
   ],
   "note": "Exact real arithmetic; axioms of the standard library's Reals. The assumption that a map context which answers 'affine' has an affine mapping is explicit. Square patches as average_area requires; C61_not_square_refuted shows what happens otherwise. Surface normals and curvature of curved cells are stated as the discrete resultant of the outer face normals (C61_curved), not as limits."
  },
  {
   "property": "C62",
   "status": "proved",
   "theorems": [
    "C62_copy",
    "C62_average",
    "C62_average_mean",
    "C62_average_corner_0_refuted",
    "C62_interpolate",
    "C62_interpolate_not_mirrored_refuted"
   ],
   "note": "Exact arithmetic. C62_average needs, at corner 0, equal areas in a row of ghost cells; C62_average_corner_0_refuted and C62_interpolate_not_mirrored_refuted show what the code does otherwise."
  },
  {
   "property": "C63",
   "status": "proved",
   "theorems": [
    "C63_copy_face",
    "C63_copy_corner",
    "C63_average_face",
    "C63_average_corner",
    "C63_interpolate_face",
    "C63_interpolate_corner",
    "C63_average2coarse",
    "C63_average_constant",
    "C63_mass",
    "C63_interpolate2fine",
    "C63_roundtrip",
    "C63_refine_iff",
    "C63_coarsen_iff",
    "C63_no_conflict",
    "C63_thresholds",
    "C63_mass_without_mapping",
    "C63_error_sums",
    "C63_conflict_refuted",
    "C63_mapped_mass_refuted",
    "C63_error_norms_refuted",
    "C63_not_square_refuted"
   ],
   "note": "Exact arithmetic except for the index transformations, which are proved for any correctly rounded arithmetic. Square patches with an even number of columns. A user-supplied criterion is not modelled. C63_mapped_mass_refuted, C63_error_norms_refuted, C63_conflict_refuted and C63_not_square_refuted show what fails."
  },
  {
   "property": "C64",
   "status": "proved",
   "theorems": [
    "C64_average2coarse",
    "C64_average_face",
    "C64_average_corner",
    "C64_depth",
    "C64_mass",
    "C64_rest_coarsened",
    "C64_velocity",
    "C64_patch_mass",
    "C64_interpolate2fine",
    "C64_interpolate_face",
    "C64_interpolate_corner",
    "C64_rest_refined",
    "C64_ocean_refined",
    "C64_ghost_depth",
    "C64_refined_mass",
    "C64_roundtrip",
    "C64_refined_depth_refuted",
    "C64_partly_wet_refuted",
    "C64_high_bottom_refuted",
    "C64_new_velocity_refuted"
   ],
   "note": "Six routines modelled (averaging and interpolation for regridding, faces, corners) over exact rationals with rounding of the coordinates. Refuted parts are stated as C64_*_refuted: refined_depth, partly_wet, high_bottom, new_velocity."
  },
  {
   "property": "C65",
   "status": "proved",
   "theorems": [
    "C65_apply",
    "C65_apply_internal",
    "C65_patch_problem",
    "C65_mesh",
    "C65_symmetric",
    "C65_unique",
    "C65_insulated",
    "C65_boundary_effect",
    "C65_boundary_values",
    "C65_two_sides_refuted",
    "C65_fields_refuted",
    "C65_coefficient_refuted",
    "C65_slope_refuted",
    "C65_vector_view",
    "C65_vector_store",
    "C65_vector_round_trip"
   ],
   "note": "The three patch operators, the boundary-value routine and the vectors are modelled over exact rationals; ThunderEgg itself (iterative solvers, multigrid, ghost fillers) is external. Refuted parts are stated as C65_*_refuted: two_sides, fields, coefficient, slope."
  },
  {
   "property": "C66",
   "status": "proved",
   "theorems": [
    "C66_values",
    "C66_same_as_46",
    "C66_one_grid",
    "C66_conservative",
    "C66_quiet",
    "C66_fwaves",
    "C66_options",
    "C66_corner_refuted",
    "C66_limiter_refuted",
    "C66_two_solvers_refuted",
    "C66_registered",
    "C66_mixture_refuted"
   ],
   "note": "values with any arithmetic and any Riemann solvers; agreement with 4.6 for waves away from three-block corners; conservation, constant states and f-waves in exact arithmetic; three-block corners, limiter 6 and two solvers with different options refuted"
  },
  {
   "property": "C67",
   "status": "proved",
   "theorems": [
    "C67_interpolate_face",
    "C67_interpolate_corner",
    "C67_filled",
    "C67_four_layers_refuted",
    "C67_interpolate2fine",
    "C67_mean",
    "C67_timeinterp",
    "C67_third_layer_refuted",
    "C67_roundtrip",
    "C67_layers_refuted",
    "C67_refine",
    "C67_refine_builtin",
    "C67_always_refine",
    "C67_threshold_variable_refuted"
   ],
   "note": "Model_Patch5. Refuted without the restrictions: C67_four_layers_refuted, C67_third_layer_refuted, C67_layers_refuted, C67_threshold_variable_refuted. The routines whose statements agree with the 4.6 ones up to the order of indices (copy, average, coarsening, capacity fix) are covered by the models of those."
  },
  {
   "property": "C68",
   "status": "proved",
   "theorems": [
    "C68_frames",
    "C68_geoclaw_frames",
    "C68_any_time",
    "C68_other_files",
    "C68_completes",
    "C68_partition",
    "C68_solution",
    "C68_solution_refuted",
    "C68_prefix_refuted",
    "C68_long_prefix_refuted",
    "C68_frame_number_refuted",
    "C68_geoclaw_frame_number_refuted",
    "C68_many_patches_refuted",
    "C68_many_equations_refuted",
    "C68_geoclaw_five_equations_refuted"
   ],
   "note": "Proved for the prefix fort, frames below 10000, up to 20 equations (GeoClaw: 1 to 4) and integers below 100000; the exceptions are the refuted theorems. The text of a real number under an edit descriptor is left open."
  },
  {
   "property": "C69",
   "status": "proved",
   "theorems": [
    "C69_refine",
    "C69_coarsen",
    "C69_no_thrashing",
    "C69_maximum",
    "C69_reaches",
    "C69_hysteresis",
    "C69_minimum_refuted",
    "C69_initial_refuted",
    "C69_speed_refuted"
   ],
   "note": "The tags are characterised exactly for all regions and data (exact arithmetic; the comparison of a square root is made without it); allowflag is an arbitrary predicate. C69_reaches is over histories of regriddings of any length. The refuted theorems are the three statements in the comments of the code that do not hold."
  },
  {
   "property": "C70",
   "status": "proved",
   "theorems": [
    "C70_criterion",
    "C70_exact",
    "C70_exists",
    "C70_clawpatch",
    "C70_geoclaw_refuted"
   ],
   "note": "p4est's adaptation is a contract: marked patches are refined, families are merged only if all four are marked, anything else may be refined below maxlevel; C70_exists shows it can be met. C70_geoclaw_refuted runs the loop with the GeoClaw criteria of C69."
  },
  {
   "property": "C71",
   "status": "proved",
   "theorems": [
    "C71_brick",
    "C71_single",
    "C71_manifold",
    "C71_sizes",
    "C71_edges",
    "C71_upper_edge_refuted"
   ],
   "note": "2D clawpatch; that the quadrants of a block cover it once is p4est's contract. The tiling is proved in exact arithmetic, agreement on the grid lines for every order preserving rounding that is exact on representable numbers. C71_upper_edge_refuted: bx itself is missed when bx - ax is not a double."
  },
  {
   "property": "C72",
   "status": "proved",
   "theorems": [
    "C72_rectangle",
    "C72_rectangle_single",
    "C72_tiles",
    "C72_rectangle_refuted",
    "C72_complete",
    "C72_one_process",
    "C72_short",
    "C72_order_refuted",
    "C72_record_refuted"
   ],
   "note": "Levels up to 15, where pow_int has no overflow (C38). The order of the serialized sections is taken from C29. C72_rectangle_refuted (IEEE double arithmetic of the standard library, evaluated by the kernel), C72_order_refuted and C72_record_refuted: what the code does not do."
  },
  {
   "property": "C73",
   "status": "proved",
   "theorems": [
    "C73_clean",
    "C73_topography",
    "C73_topography_refuted",
    "C73_bed_current",
    "C73_bed_final",
    "C73_bed_final_refuted",
    "C73_depth",
    "C73_friction",
    "C73_coriolis",
    "C73_coriolis_refuted",
    "C73_storm",
    "C73_rest"
   ],
   "note": "Over the reals; rounding is not modelled. wind_drag, storm_location, storm_direction and atan2 are arbitrary functions. C73_topography_refuted, C73_bed_final_refuted and C73_coriolis_refuted show where the expectation fails; C73_coriolis is the strongest order that holds. The bed is represented by the time it was computed for; the interpolation in topo_update and setaux is not modelled."
  },
  {
   "property": "C74",
   "status": "proved",
   "theorems": [
    "C74_no_abort",
    "C74_exclusive",
    "C74_ghost_update",
    "C74_report",
    "C74_sums",
    "C74_unaccounted",
    "C74_unaccounted_refuted",
    "C74_means",
    "C74_means_refuted",
    "C74_threads",
    "C74_threads_refuted"
   ],
   "note": "All executions of initialise, run and finalise in a control-flow model of every timer call of the core library; UNACCOUNTED, the mean grid counts and clawpack 5.x with OpenMP are refuted. User call-backs are taken not to touch timers; CUDA solvers and the statistics over processes are not modelled."
  },
  {
   "property": "C75",
   "status": "proved",
   "theorems": [
    "C75_substeps",
    "C75_motion_resolved",
    "C75_output_times",
    "C75_after_motion",
    "C75_cfl_refuted",
    "C75_instant_refuted",
    "C75_outstyle_4_refuted",
    "C75_diagnostics_refuted"
   ],
   "note": "Exact rational times; the interval of motion and dt_max_dtopo are parameters; glob->curr_dt is left out. The four limits in the statement are the theorems ending in _refuted."
  },
  {
   "property": "C76",
   "status": "proved",
   "theorems": [
    "C76_values",
    "C76_unchanged",
    "C76_vertical",
    "C76_again",
    "C76_periodic_refuted",
    "C76_thin_refuted",
    "C76_scalar_wall_refuted",
    "C76_user_refuted"
   ],
   "note": "Exact rational values; reads of unassigned cells are allowed and copied. The four limits in the statement are the theorems ending in _refuted. Which faces lie on the boundary is C55 and C48."
  },
  {
   "property": "C77",
   "status": "proved",
   "theorems": [
    "C77_integral",
    "C77_partition",
    "C77_bounds",
    "C77_surface_only",
    "C77_children",
    "C77_stop",
    "C77_area",
    "C77_full_cover",
    "C77_one_file",
    "C77_in_bounds",
    "C77_check_refuted"
   ],
   "note": "C77_integral: the result equals the midpoint Riemann sums of the finest-data surface on every partition containing the grid lines; C77_partition: such partitions exist; C77_bounds, C77_surface_only, C77_children, C77_stop, C77_area, C77_full_cover, C77_one_file, C77_in_bounds: the consequences in the statement; C77_check_refuted: the start-up check lets 1% of the domain uncovered. Cartesian coordinates and exact arithmetic only."
  },
  {
   "property": "C78",
   "status": "proved",
   "theorems": [
    "C78_values",
    "C78_untouched",
    "C78_stop",
    "C78_neighbours",
    "C78_levels",
    "C78_periodic_refuted"
   ],
   "note": "C78_values, C78_untouched, C78_stop: the result of setting the bathymetry of a patch; C78_neighbours: patches of a level agree; C78_levels: a cell's bathymetry is the average of the four finer cells'; C78_periodic_refuted: not so across periodic boundaries. Exact arithmetic, Cartesian coordinates."
  },
  {
   "property": "C79",
   "status": "proved",
   "theorems": [
    "C79_rest",
    "C79_added",
    "C79_surface",
    "C79_depth",
    "C79_untouched",
    "C79_negative_refuted",
    "C79_dry_refuted",
    "C79_volume_refuted"
   ],
   "note": "Rational arithmetic, Cartesian coordinates. Refuted in full generality: a type 1 trough deeper than the water gives a negative depth (C79_negative_refuted), a dry cell whose bottom is exactly at sea level receives momentum (C79_dry_refuted), and a cell that the file covers partly receives more water than the integral of the perturbation over it (C79_volume_refuted)."
  },
  {
   "property": "C80",
   "status": "proved",
   "theorems": [
    "C80_values",
    "C80_rest",
    "C80_same_cell",
    "C80_again",
    "C80_stop",
    "C80_periodic_refuted"
   ],
   "note": "Rational arithmetic; the bathymetry aux(1) is kept as component meqn+1 of the array. Refuted in full generality: a side declared periodic (2) that the mesh does not connect is left unset without an error (C80_periodic_refuted)."
  },
  {
   "property": "C81",
   "status": "proved",
   "theorems": [
    "C81_values",
    "C81_untouched",
    "C81_tvd",
    "C81_uniform",
    "C81_mirror",
    "C81_beam_warming_refuted",
    "C81_mirror_refuted"
   ],
   "note": "Rational arithmetic. Refuted in full generality: Beam-Warming can turn a wave around (C81_beam_warming_refuted), and a standing wave is always compared with the wave on its right, so that mirrored data do not give the mirrored result (C81_mirror_refuted)."
  },
  {
   "property": "C82",
   "status": "proved",
   "theorems": [
    "C82_interface",
    "C82_total",
    "C82_capacity",
    "C82_conservative",
    "C82_rest",
    "C82_untouched",
    "C82_courant",
    "C82_courant_capacity",
    "C82_courant_attained",
    "C82_values",
    "C82_corners"
   ],
   "note": "Model_GeoStep: geoclaw_step2_wrap_fort.f, geoclaw_step2_fort.f90 and geoclaw_flux2fw_fort.f in Cartesian coordinates, with the limiter of Model_GeoLimiter and arbitrary Riemann solvers. Values of the update (without capacity function); fluxes at an interface differ by the fluctuations; totals; rest; ghost cells; Courant number; corners where three blocks meet."
  },
  {
   "property": "C83",
   "status": "proved",
   "theorems": [
    "C83_cell",
    "C83_dry",
    "C83_linear",
    "C83_between",
    "C83_between_refuted"
   ],
   "note": "Model_GeoGauge: geoclaw_gauges_fort.f90 completely, over exact rationals. That recorded values lie between those of the cells used is proved in the upper right quarter of the cell and refuted elsewhere."
  },
  {
   "property": "C84",
   "status": "proved",
   "theorems": [
    "C84_blocked",
    "C84_split",
    "C84_linear",
    "C84_in_step",
    "C84_mirror_refuted"
   ],
   "note": "Model_GeoRpt: rpt2_geoclaw.f in Cartesian coordinates, over rationals with an arbitrary positive square root function. Symmetry under exchange of the two cells is refuted."
  }
 ]
}
