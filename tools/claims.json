{
 "C01": {
  "status": "proved",
  "note": "face_swap in 2D and 3D for every face pair and orientation; the 2D link to the inverse transformation uses the documented behaviour of the external p4est_expand_face_transform"
 },
 "C02": {
  "status": "proved",
  "note": "2D and 3D, all levels, positions, axis permutations, reversals, face codes, both bases; binary64 exactness is derived from the rounding function being exact on representable values, for 2^level*m <= 2^49"
 },
 "C03": {
  "status": "proved",
  "note": "2D and 3D; every output slot is written once and holds the fine cell centered on the corresponding child of the coarse cell"
 },
 "C04": {
  "status": "proved",
  "note": "transform_corner and transform_corner2, inside a block and between equally oriented blocks"
 },
 "C06": {
  "status": "proved",
  "note": "Level, patch and all-level iteration over every domain built by the modelled fclaw2d_domain_new, 2D and 3D."
 },
 "C07": {
  "status": "proved",
  "note": "Family iteration over every constructed domain reports exactly the complete families; families are disjoint."
 },
 "C08": {
  "status": "proved",
  "note": "iterate_adapted for every sequence of keep/refine/coarsen outcomes per block."
 },
 "C09": {
  "status": "proved",
  "note": "iterate_partitioned and the transfer callback for all old/new ownership intervals; the window returned by p4est_wrap_partition and the byte transfer of packed patches are external and assumed by their contract."
 },
 "C44": {
  "status": "proved",
  "note": "fclaw2d_domain_new: geometry, levels, child numbers, sibling/boundary/mirror flags, level chains, exchange list, ghosts. Block vertices, is_boundary and the MPI reduction of levels not modelled."
 },
 "C12": {
  "status": "proved",
  "note": "exact rational times; subcycled and not; any level range, any process-local minimum level"
 },
 "C13": {
  "status": "proved",
  "note": "exact rational times; also that every intermediate ghost exchange is synchronised"
 },
 "C14": {
  "status": "proved",
  "note": "exact rational times, variable step; any CFL history; termination for CFL numbers bounded by a multiple of the step; with a fixed step output times are overshot (C14_fixed_step_refuted)"
 },
 "C15": {
  "status": "proved",
  "note": "styles 3 and 4; nstep = 0 divides by zero in the code (C15_zero_interval_refuted)"
 },
 "C33": {
  "status": "proved",
  "note": "Scalars, strings and NULL strings read back from the byte buffer, using exactly the announced bytes."
 },
 "C34": {
  "status": "proved",
  "note": "Three option packages read back; the original claim including regression_check is refuted (C34_regression_check_refuted) and the property statement says so."
 },
 "C35": {
  "status": "proved",
  "note": "Global state with every registered option package reads back; an unregistered package aborts."
 },
 "C36": {
  "status": "proved",
  "note": "For every history and every visiting order of the table."
 },
 "C37": {
  "status": "proved",
  "note": "Exact rational clock readings."
 },
 "C38": {
  "status": "proved",
  "note": "Exact characterisation of when the loop overflows; original claim refuted (C38_no_overflow_refuted); wrap-around variant proved."
 },
 "C16": {
  "status": "proved",
  "note": "Array boxes refine independent values; save/restore exact for every history; copy constructor and debug self-assignment refuted as side findings."
 },
 "C10": {
  "status": "proved",
  "note": "Any program of marks from an unmarked domain: requested level and flag of every patch given exactly; bounds [0, P4EST_QMAXLEVEL]; regridding tags exact for arbitrary answers of the user tag functions, and requests stay in [minlevel, maxlevel]."
 },
 "C11": {
  "status": "proved",
  "note": "All forests, neighbor relations and visiting orders under stated mesh facts (2:1 balance, ghosts mirror owners) and delivery of ghost target levels; effect on the mesh through a stated contract of p4est_wrap_adapt."
 },
 "C19": {
  "status": "proved",
  "note": "For even mx = my; each cell covered once, value is the (area weighted) mean, other cells untouched, mass equal. Odd sizes (accepted by the option check) and mx <> my are refuted by example."
 },
 "C20": {
  "status": "proved",
  "note": "For even sizes and mbc >= 2. Values in exact arithmetic. mbc = 1 writes out of bounds (refuted); range property does not hold on mapped grids in general (refuted), constants are preserved when areas add up."
 },
 "C21": {
  "status": "proved",
  "note": "Limiter mth = 5 as used by the interpolation routines, exact arithmetic."
 },
 "C22": {
  "status": "proved",
  "note": "Same-size neighbor in the same block or across a block boundary with any orientation; index transformation with rounding."
 },
 "C23": {
  "status": "proved",
  "note": "Even mx = my, any rounding of the index transformation; odd sizes refuted by example."
 },
 "C17": {
  "status": "proved",
  "note": "All sizes with 2*refratio*mbc <= mx, my; the smaller patches accepted by the option check are refuted by C17_small_patch_refuted. The solver's routine for extra fields is assumed to copy them."
 },
 "C18": {
  "status": "proved",
  "note": "Exact arithmetic."
 },
 "C26": {
  "status": "proved",
  "note": "For any user test that depends only on what it is shown (usable): tag = 1 iff the test holds at some visited cell, where shows says what is passed, including running min/max over everything seen. For the four built-in criteria this is reduced to statements on the data; coarsening never happens during initialisation or with a non-positive threshold; no family tagged for coarsening contains a patch tagged for refinement if coarsen_threshold <= refine_threshold. Refuted: threshold_variable > meqn is not rejected and reads out of bounds. Exact rational arithmetic."
 },
 "C24": {
  "status": "proved",
  "note": "step, correction of every cell, balance of a synchronisation on any distribution of the patches, and conservation over any history; refuted for one ghost layer"
 },
 "C25": {
  "status": "proved",
  "note": "pack/unpack of the registers, and which registers a synchronisation clears"
 },
 "C29": {
  "status": "proved",
  "note": "transition system of the message passing; exclusion, rank order, progress, termination; overlap of repeated sections refuted"
 },
 "C05": {
  "status": "proved",
  "note": "Against a global forest and the documented p4est mesh encoding (Spec_Mesh.represents), 2D and 3D."
 },
 "C28": {
  "status": "proved",
  "note": "indirect_begin on all processes, exchange contract (delivered), indirect_end and the two queries; the p4est exchange and sc_hash are contracts."
 },
 "C27": {
  "status": "proved",
  "note": "Interleaving model of the exchange calls of all processes with a heap; p4est ghost exchange as contract (mirror data copied at begin, ghost memory written at end). C27_below_range_overwritten and C27_delete_inside_accepted show behaviour outside the claim."
 },
 "C30": {
  "status": "proved",
  "note": "p4est_search_local as contract: any search tree whose branches contain the local leaves below them, in any order. Finite coordinates; comparisons with exact powers of two under any rounding exact on representable numbers."
 },
 "C31": {
  "status": "proved",
  "note": "Exact (rational) sums; callback consistent with nesting (a quadrant around a contributing leaf is reported as intersected); p4est_search_local as contract as for C30."
 },
 "C39": {
  "status": "proved",
  "note": "C39_samples: for any number of processes, buffer length >= 1, order of execution within each collective call and any migration, each gauge file receives exactly one line per sampling time in call order; C39_times/C39_spacing: sampling times are a function of the update times only, within [t1,t2] and spaced; collective calls are separated by global reductions (model assumption). C39_zero_buffer_refuted: gauge_buffer_length = 0 is accepted by the options and overflows the buffer."
 },
 "C40": {
  "status": "proved",
  "note": "C40_slots: slots, offsets and coordinates are right if every gauge lies in exactly one block; C40_brick: this is so for gauges off the inner edges of a brick. Refuted otherwise: C40_shared_edge_refuted (gauge on an edge between blocks overflows the coordinate array), C40_no_brick_refuted (several blocks without brick), C40_outside_refuted."
 },
 "C48": {
  "status": "proved",
  "note": "C48_tiling in exact arithmetic, C48_rounded for any monotone rounding exact on representable numbers; C48_single_tree_refuted: without a brick the assertion compares a pointer with 0 and always fails."
 },
 "C41": {
  "status": "proved",
  "note": "Layout and round trip for all sequences of calls whose sizes are not 15 modulo 16 (C41_padding_refuted shows the failure there). The reading functions of the source are disabled by #if 0; the reader is part of the specification."
 },
 "C42": {
  "status": "proved",
  "note": "For every partition, order of the processes and I/O mode the bytes are the same; ranges of the processes tile the data."
 },
 "C43": {
  "status": "proved",
  "note": "Agreement of all processes for errors of collective calls and section headers; codes and messages per class. Refuted parts: other I/O class, public messages, short writes, errors after the header, error path of the count-per-tree block, short file header."
 },
 "C46": {
  "status": "proved",
  "note": "C46_ghost_update: the whole update on all processes, symbolic contents by region. C46_values_exist/_values_current: which regions are covered and that contents are current. C46_deterministic: overlap, old contents and buffers do not matter. C46_stale_copy_refuted: before the exchange stale remote copies are read. Region footprints of the Fortran routines are stated in Model_FillExec.v; forest balance and completeness of the ghost layer are hypotheses (p4est)."
 },
 "C47": {
  "status": "proved",
  "note": "C47_corner_blocks; the exception is real: C47_remote_coarse_refuted."
 },
 "C49": {
  "status": "proved",
  "note": "strtol modelled exactly (base 10, saturation, low 32 bits); strtod for decimal numbers as exact rationals, hexadecimal, inf and nan not modelled; C49_int_range_refuted: numbers outside int are silently changed"
 },
 "C50": {
  "status": "proved",
  "note": "exact rational arithmetic; undefined conversions are None; C50_exact_division_refuted and C50_unusable_refuted show what the checks let through"
 },
 "C51": {
  "status": "proved",
  "note": "status of loading, parsing and saving are inputs; C51_save_failure_refuted: the root alone stops when saving fails"
 },
 "C45": {
  "status": "proved",
  "note": "For all histories p4est may produce (legal). The recorded patch number goes stale: refuted with a witness."
 },
 "C52": {
  "status": "proved",
  "note": "Numerical interpolation and averaging are parameters (their own properties are C19-C23); the buffers received are an input."
 },
 "C32": {
  "status": "proved",
  "note": "For every interleaving: answers, freedom from deadlock (also with rendezvous sends), termination, no failed assertion, and the build without MPI. Contributions of several processes: refuted, only the lowest contributing process answers."
 },
 "C53": {
  "status": "proved",
  "note": "square patches; for mx different from my the inner loop along x-faces has the wrong bound (C53_not_square_refuted)"
 },
 "C54": {
  "status": "proved",
  "note": "square patches; where four blocks meet, interpolation needs 2^level*m <= 2^29 (C54_deep_block_corner_refuted)"
 },
 "C55": {
  "status": "proved",
  "note": "default boundary routine of clawpack 4.6; a wall with too few equations is C55_scalar_wall_refuted"
 },
 "C56": {
  "status": "proved",
  "note": "exact arithmetic; the 2-norm before the square root; the user's error routine is an arbitrary function"
 },
 "C57": {
  "status": "proved",
  "note": "values with any arithmetic and any Riemann solver functions; conservation, constants, limiters and f-waves in exact arithmetic; f-waves with a capacity function, one ghost layer with a limiter and order 3 2 refuted"
 },
 "C58": {
  "status": "proved",
  "note": "uniform meshes, clawpack 4.6 in 2D, no source terms, no metric changes; any arithmetic (conservation: exact); composition of the models of C17-C25, C28, C36, C53-C55, C57; run without ghost filling after initialization refuted"
 },
 "C59": {
  "status": "proved",
  "note": "C59_file, C59_partition, C59_solution, C59_return for parallel output or one process. Refuted: several processes without MPI I/O (C59_several_processes_refuted), an effect of vtkspace (C59_separation_refuted), patches whose byte counts do not fit into int (C59_large_patches_refuted)."
 },
 "C60": {
  "status": "proved",
  "note": "exact real arithmetic; the squared disk and the bilinear map are not claimed to cover. Refuted: the pillow disk reaches its centre (C60_pillowdisk_centre_refuted), the option phi turns about the x axis (C60_rotation_about_x_refuted). Uses the standard library's axioms of the real numbers."
 },
 "C61": {
  "status": "proved",
  "note": "Exact real arithmetic; axioms of the standard library's Reals. The assumption that a map context which answers 'affine' has an affine mapping is explicit. Square patches as average_area requires; C61_not_square_refuted shows what happens otherwise. Surface normals and curvature of curved cells are stated as the discrete resultant of the outer face normals (C61_curved), not as limits."
 },
 "C62": {
  "status": "proved",
  "note": "Exact arithmetic. C62_average needs, at corner 0, equal areas in a row of ghost cells; C62_average_corner_0_refuted and C62_interpolate_not_mirrored_refuted show what the code does otherwise."
 },
 "C63": {
  "status": "proved",
  "note": "Exact arithmetic except for the index transformations, which are proved for any correctly rounded arithmetic. Square patches with an even number of columns. A user-supplied criterion is not modelled. C63_mapped_mass_refuted, C63_error_norms_refuted, C63_conflict_refuted and C63_not_square_refuted show what fails."
 },
 "C64": {
  "status": "proved",
  "note": "Six routines modelled (averaging and interpolation for regridding, faces, corners) over exact rationals with rounding of the coordinates. Refuted parts are stated as C64_*_refuted: refined_depth, partly_wet, high_bottom, new_velocity."
 },
 "C65": {
  "status": "proved",
  "note": "The three patch operators, the boundary-value routine and the vectors are modelled over exact rationals; ThunderEgg itself (iterative solvers, multigrid, ghost fillers) is external. Refuted parts are stated as C65_*_refuted: two_sides, fields, coefficient, slope."
 },
 "C66": {
  "status": "proved",
  "note": "values with any arithmetic and any Riemann solvers; agreement with 4.6 for waves away from three-block corners; conservation, constant states and f-waves in exact arithmetic; three-block corners, limiter 6 and two solvers with different options refuted"
 },
 "C67": {
  "status": "proved",
  "note": "Model_Patch5. Refuted without the restrictions: C67_four_layers_refuted, C67_third_layer_refuted, C67_layers_refuted, C67_threshold_variable_refuted. The routines whose statements agree with the 4.6 ones up to the order of indices (copy, average, coarsening, capacity fix) are covered by the models of those."
 },
 "C68": {
  "status": "proved",
  "note": "Proved for the prefix fort, frames below 10000, up to 20 equations (GeoClaw: 1 to 4) and integers below 100000; the exceptions are the refuted theorems. The text of a real number under an edit descriptor is left open."
 },
 "C69": {
  "status": "proved",
  "note": "The tags are characterised exactly for all regions and data (exact arithmetic; the comparison of a square root is made without it); allowflag is an arbitrary predicate. C69_reaches is over histories of regriddings of any length. The refuted theorems are the three statements in the comments of the code that do not hold."
 },
 "C70": {
  "status": "proved",
  "note": "p4est's adaptation is a contract: marked patches are refined, families are merged only if all four are marked, anything else may be refined below maxlevel; C70_exists shows it can be met. C70_geoclaw_refuted runs the loop with the GeoClaw criteria of C69."
 },
 "C71": {
  "status": "proved",
  "note": "2D clawpatch; that the quadrants of a block cover it once is p4est's contract. The tiling is proved in exact arithmetic, agreement on the grid lines for every order preserving rounding that is exact on representable numbers. C71_upper_edge_refuted: bx itself is missed when bx - ax is not a double."
 },
 "C72": {
  "status": "proved",
  "note": "Levels up to 15, where pow_int has no overflow (C38). The order of the serialized sections is taken from C29. C72_rectangle_refuted (IEEE double arithmetic of the standard library, evaluated by the kernel), C72_order_refuted and C72_record_refuted: what the code does not do."
 },
 "C73": {
  "status": "proved",
  "note": "Over the reals; rounding is not modelled. wind_drag, storm_location, storm_direction and atan2 are arbitrary functions. C73_topography_refuted, C73_bed_final_refuted and C73_coriolis_refuted show where the expectation fails; C73_coriolis is the strongest order that holds. The bed is represented by the time it was computed for; the interpolation in topo_update and setaux is not modelled."
 },
 "C74": {
  "status": "proved",
  "note": "All executions of initialise, run and finalise in a control-flow model of every timer call of the core library; UNACCOUNTED, the mean grid counts and clawpack 5.x with OpenMP are refuted. User call-backs are taken not to touch timers; CUDA solvers and the statistics over processes are not modelled."
 },
 "C75": {
  "status": "proved",
  "note": "Exact rational times; the interval of motion and dt_max_dtopo are parameters; glob->curr_dt is left out. The four limits in the statement are the theorems ending in _refuted."
 },
 "C76": {
  "status": "proved",
  "note": "Exact rational values; reads of unassigned cells are allowed and copied. The four limits in the statement are the theorems ending in _refuted. Which faces lie on the boundary is C55 and C48."
 },
 "C77": {
  "status": "proved",
  "note": "C77_integral: the result equals the midpoint Riemann sums of the finest-data surface on every partition containing the grid lines; C77_partition: such partitions exist; C77_bounds, C77_surface_only, C77_children, C77_stop, C77_area, C77_full_cover, C77_one_file, C77_in_bounds: the consequences in the statement; C77_check_refuted: the start-up check lets 1% of the domain uncovered. Cartesian coordinates and exact arithmetic only."
 },
 "C78": {
  "status": "proved",
  "note": "C78_values, C78_untouched, C78_stop: the result of setting the bathymetry of a patch; C78_neighbours: patches of a level agree; C78_levels: a cell's bathymetry is the average of the four finer cells'; C78_periodic_refuted: not so across periodic boundaries. Exact arithmetic, Cartesian coordinates."
 },
 "C79": {
  "status": "proved",
  "note": "Rational arithmetic, Cartesian coordinates. Refuted in full generality: a type 1 trough deeper than the water gives a negative depth (C79_negative_refuted), a dry cell whose bottom is exactly at sea level receives momentum (C79_dry_refuted), and a cell that the file covers partly receives more water than the integral of the perturbation over it (C79_volume_refuted)."
 },
 "C80": {
  "status": "proved",
  "note": "Rational arithmetic; the bathymetry aux(1) is kept as component meqn+1 of the array. Refuted in full generality: a side declared periodic (2) that the mesh does not connect is left unset without an error (C80_periodic_refuted)."
 },
 "C81": {
  "status": "proved",
  "note": "Rational arithmetic. Refuted in full generality: Beam-Warming can turn a wave around (C81_beam_warming_refuted), and a standing wave is always compared with the wave on its right, so that mirrored data do not give the mirrored result (C81_mirror_refuted)."
 },
 "C82": {
  "status": "proved",
  "note": "Model_GeoStep: geoclaw_step2_wrap_fort.f, geoclaw_step2_fort.f90 and geoclaw_flux2fw_fort.f in Cartesian coordinates, with the limiter of Model_GeoLimiter and arbitrary Riemann solvers. Values of the update (without capacity function); fluxes at an interface differ by the fluctuations; totals; rest; ghost cells; Courant number; corners where three blocks meet."
 },
 "C83": {
  "status": "proved",
  "note": "Model_GeoGauge: geoclaw_gauges_fort.f90 completely, over exact rationals. That recorded values lie between those of the cells used is proved in the upper right quarter of the cell and refuted elsewhere."
 },
 "C84": {
  "status": "proved",
  "note": "Model_GeoRpt: rpt2_geoclaw.f in Cartesian coordinates, over rationals with an arbitrary positive square root function. Symmetry under exchange of the two cells is refuted."
 }
}