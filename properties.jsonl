{"id": "C01", "title": "Swapping a face connection twice gives the connection back", "statement": "fclaw2d_patch_face_swap turns (my face, remote face code) into the description of the same face connection seen from the other patch: the faces are exchanged, the orientation is kept, and applying it twice restores both arguments, in 2D and in 3D.", "quantifier": "all faces, all neighbor faces and all orientations, 2D and 3D", "why_tests_cant": "tests pick individual face codes; the round trip has to hold for the whole code space including the 3D orientation table", "anchors": ["src/forestclaw2d.c: fclaw2d_patch_face_swap"]}
{"id": "C02", "title": "Same-size face transformation is the exact geometric identification of cells", "statement": "For two same-size patches across any face (same block or across a block face with any orientation), fclaw2d_patch_transform_face maps the index of each cell to the index, in the neighbor's own numbering, of the cell with the same physical position under the block-face gluing; cells and ghost cells are hit exactly, no rounding is ever involved, and transforming with the swapped face connection is the inverse map.", "quantifier": "all levels, all patch positions in the block, all mx, my, all (axis, reversal, face code) transformations, 0-based and 1-based indices, all integer cell indices", "why_tests_cant": "infinitely many levels, resolutions and positions; the test-suite never instantiates multi-block orientations systematically", "anchors": ["src/forestclaw2d.c: fclaw2d_patch_transform_face", "src/forestclaw2d.c: fclaw2d_patch_face_transformation", "src/forestclaw2d.c: fclaw2d_patch_face_transformation_intra"]}
{"id": "C03", "title": "Half-size face transformation returns exactly the fine cells covering the coarse cell", "statement": "fclaw2d_patch_transform_face2 returns exactly the 2^d fine cells that geometrically tile the given coarse cell, each once, and lists them in the order of the caller's own child numbering.", "quantifier": "all levels, positions, mx, my, orientations, both index bases, all cell indices", "why_tests_cant": "as above; additionally the child permutation depends on the orientation", "anchors": ["src/forestclaw2d.c: fclaw2d_patch_transform_face2"]}
{"id": "C04", "title": "Corner transformations identify the right cells", "statement": "fclaw2d_patch_transform_corner and fclaw2d_patch_transform_corner2 map a cell across a corner (inside a block, or between blocks with equal orientation) to the cell(s) at the same physical position in the corner neighbor, with no rounding.", "quantifier": "all levels, positions, corners, mx, my, index bases and cell indices", "why_tests_cant": "unbounded parameter space", "anchors": ["src/forestclaw2d.c: fclaw2d_patch_transform_corner", "src/forestclaw2d.c: fclaw2d_patch_transform_corner2"]}
{"id": "C05", "title": "Face neighbor query decodes the mesh faithfully", "statement": "For any mesh entry, fclaw2d_patch_face_neighbors reports physical boundary, same-size, half-size or double-size exactly according to the connection present in the mesh, returns the right neighbor patches (owner rank, block, patch number; local or ghost), the right neighbor face/orientation, and for a double-size neighbor which half of it is touched. fclaw2d_patch_corner_neighbors, fclaw2d_patch_boundary_type and fclaw2d_patch_normal_match likewise.", "quantifier": "all meshes satisfying the mesh encoding, all patches and faces, 2D and 3D, any number of processes", "why_tests_cant": "encoded integers range over all forests and partitions", "anchors": ["src/forestclaw2d.c: fclaw2d_patch_face_neighbors", "src/forestclaw2d.c: fclaw2d_patch_encode_neighbor", "src/forestclaw2d.c: fclaw2d_patch_normal_match"]}
{"id": "C06", "title": "Level iteration visits each local patch of the level exactly once", "statement": "fclaw2d_domain_iterate_level calls the callback exactly once for each local patch on the level, with its correct block and patch number, in block-major and patch order, and for no other patch; iterating over all levels visits every patch exactly once.", "quantifier": "all domains (any number of blocks, patches, levels) and all levels", "why_tests_cant": "must hold for every forest, including empty blocks and empty levels", "anchors": ["src/forestclaw2d.c: fclaw2d_domain_iterate_level", "src/forestclaw2d.c: fclaw2d_domain_iterate_patches", "src/fclaw2d_convenience.c: fclaw2d_domain_list_level / patchbylevel construction"]}
{"id": "C07", "title": "Family iteration visits exactly the complete local families", "statement": "fclaw2d_domain_iterate_families calls the callback once for each set of 2^d consecutive siblings whose first patch is marked as first sibling; the families are disjoint and complete and no other patch is ever reported.", "quantifier": "all domains whose first-sibling flags describe complete families", "why_tests_cant": "all tree shapes", "anchors": ["src/forestclaw2d.c: fclaw2d_domain_iterate_families", "src/forestclaw2d.c: fclaw2d_patch_is_first_sibling"]}
{"id": "C08", "title": "Adapted-domain iteration pairs each old patch with its successors", "statement": "fclaw2d_domain_iterate_adapted walks the old and the new forest in step: it reports same-size, refined (one old, 2^d new) or coarsened (2^d old, one new) exactly according to what happened, every old patch and every new patch is reported in exactly one call, in order, and the two walks end together.", "quantifier": "all forests and all refine/coarsen outcomes", "why_tests_cant": "all adaptation histories", "anchors": ["src/forestclaw2d.c: fclaw2d_domain_iterate_adapted", "src/fclaw2d_regrid.c: cb_fclaw2d_regrid_repopulate"]}
{"id": "C09", "title": "Partition transfer moves each patch exactly once", "statement": "After repartitioning, fclaw2d_domain_iterate_partitioned reports every new local patch exactly once; patches that stay on the process are paired with their old incarnation (same global number) and all others with no old patch; patch data allocated by the library is freed or handed over exactly once.", "quantifier": "all old and new partitions of any forest over any number of processes", "why_tests_cant": "all pairs of partitions", "anchors": ["src/forestclaw2d.c: fclaw2d_domain_iterate_partitioned", "src/fclaw2d_partition.c: cb_fclaw2d_partition_transfer"]}
{"id": "C10", "title": "Refinement marks never leave the admissible level range", "statement": "Marking a patch for refinement or coarsening changes its requested level by exactly one, never above the maximum quadtree level nor below zero, and the regridding tag callbacks only ever request levels within [minlevel, maxlevel].", "quantifier": "all patches, levels, options and mark sequences", "why_tests_cant": "arbitrary sequences of marks over arbitrary forests", "anchors": ["src/forestclaw2d.c: fclaw2d_patch_mark_refine", "src/forestclaw2d.c: fclaw2d_patch_mark_coarsen", "src/fclaw2d_regrid.c: cb_fclaw2d_regrid_tag4refinement", "src/fclaw2d_regrid.c: cb_fclaw2d_regrid_tag4coarsening"]}
{"id": "C11", "title": "Smooth refinement adds a one-ring of refinement and never cancels a refine mark", "statement": "With smooth_refine, fclaw2d_domain_adapt refines every patch that is marked for refinement or has a face/corner neighbor (local or remote) of a level requesting a finer level than its own (restricted to levels at or above smooth_refine_level), coarsens only families in which no member is pulled up, and the outcome does not depend on the order in which patches or processes are visited.", "quantifier": "all forests, neighbor relations, marks and visiting orders", "why_tests_cant": "all orders and graphs", "anchors": ["src/fclaw2d_convenience.c: fclaw2d_domain_adapt"]}
{"id": "C12", "title": "Subcycling takes exactly 2^(level-minlevel) steps per level and lands on t+dt", "statement": "One call of fclaw2d_advance_all_levels advances every level from t_curr to exactly t_curr+dt: level l takes 2^(l-minlevel) steps of size dt/2^(l-minlevel) when subcycling (all levels take the same steps otherwise), whenever a level starts a step its coarser level stands at the same time or has just finished the coarse step that contains it, and the CFL number returned is the largest of all steps.", "quantifier": "all minlevel <= maxlevel, all dt and start times, with and without subcycling", "why_tests_cant": "recursion depth is unbounded", "anchors": ["src/fclaw2d_advance.c: fclaw2d_advance_all_levels", "src/fclaw2d_advance.c: advance_level", "src/fclaw2d_advance.c: initialize_timestep_counters"]}
{"id": "C13", "title": "Time interpolation always uses the half-way point", "statement": "Whenever a finer level needs ghost data between two coarse steps, the interpolation parameter passed to the patch is exactly the fraction (t_fine - t_coarse_last)/dt_coarse, which is always 1/2, and it is requested only when both coarse time levels are available.", "quantifier": "all level ranges and all points of the recursion", "why_tests_cant": "unbounded recursion", "anchors": ["src/fclaw2d_advance.c: compute_alpha", "src/fclaw2d_advance.c: timeinterp_level", "src/fclaw2d_timeinterp.c: fclaw2d_timeinterp"]}
{"id": "C14", "title": "Time loop (outstyle 1) reaches every output time exactly and never passes it", "statement": "With variable time step the run loop of output style 1 writes frame k at time t0 + k*(tfinal-t0)/nout within the tolerance, never advances beyond an output time, a rejected step leaves the solution and the clock unchanged, and it finishes at tfinal.", "quantifier": "all CFL histories (any finite sequence of accepted/rejected steps), all nout, dt and final times", "why_tests_cant": "depends on the whole history of CFL numbers", "anchors": ["src/fclaw2d_run.c: outstyle_1"]}
{"id": "C15", "title": "Step-count output styles take exactly the requested number of steps", "statement": "Output style 3 performs exactly nout accepted steps and writes a frame every nstep-th accepted step; output style 4 takes exactly the requested number of fixed-size steps; the initial frame is always written.", "quantifier": "all nout, nstep, CFL histories", "why_tests_cant": "depends on the whole history", "anchors": ["src/fclaw2d_run.c: outstyle_3", "src/fclaw2d_run.c: outstyle_4"]}
{"id": "C16", "title": "A rejected step restores the solution exactly", "statement": "fclaw2d saved data and current data never alias: after save_step, any number of updates of the current data, restore_step gives back exactly the saved values, and later updates never modify the saved copy.", "quantifier": "all patch sizes and all sequences of save, update and restore", "why_tests_cant": "aliasing must be excluded for all histories", "anchors": ["src/fclaw2d_farraybox.cpp: FArrayBox::operator=", "src/fclaw2d_farraybox.cpp: FArrayBox::set_dataPtr", "src/patches/clawpatch/fclaw2d_clawpatch.cpp: clawpatch_save_step", "src/patches/clawpatch/fclaw2d_clawpatch.cpp: clawpatch_restore_step"]}
{"id": "C17", "title": "Parallel ghost packing transfers every cell a neighbor needs", "statement": "Packing a patch for the parallel exchange and unpacking it on the receiver reproduces every ghost cell and every interior cell within the exchange width of the boundary, in every field, using exactly the advertised buffer size, touching no other cell.", "quantifier": "all mx, my of at least twice the exchange width, mbc, meqn, options for area, extra fields and registers, and data", "why_tests_cant": "index arithmetic over all sizes; all solution values", "anchors": ["src/patches/clawpatch/fort_4.6/fclaw2d_clawpatch46_local_ghost_pack.f", "src/patches/clawpatch/fclaw2d_clawpatch.cpp: clawpatch_ghost_comm", "src/patches/clawpatch/fclaw2d_clawpatch.cpp: clawpatch_ghost_pack_elems"]}
{"id": "C18", "title": "Time-interpolated coarse data covers every cell used for ghost filling", "statement": "Time interpolation sets every interior cell within mbc layers of the patch boundary to q_last + alpha (q_curr - q_last) and modifies no ghost cell; a linear-in-time solution is reproduced exactly and the result lies between the two time levels.", "quantifier": "all mx, my, mbc, meqn, alpha in [0,1], all data", "why_tests_cant": "all sizes and values", "anchors": ["src/patches/clawpatch/fort_4.6/fclaw2d_clawpatch46_timeinterp.f", "src/patches/clawpatch/fclaw2d_clawpatch.cpp: clawpatch_setup_timeinterp"]}
{"id": "C19", "title": "Averaging four siblings onto the parent is complete and conservative", "statement": "Averaging the four children onto the parent when coarsening writes every interior coarse cell exactly once with the (area weighted) mean of the four fine cells covering it, so the total mass is unchanged.", "quantifier": "all even mx = my, all data, cartesian and mapped grids", "why_tests_cant": "all sizes and values", "anchors": ["src/patches/clawpatch/fort_4.6/fclaw2d_clawpatch46_average.f: fclaw2d_clawpatch46_fort_average2coarse", "src/patches/clawpatch/fclaw2d_clawpatch.cpp: clawpatch_average2coarse"]}
{"id": "C20", "title": "Refining a patch is conservative, bounded and undone by coarsening", "statement": "Interpolating a coarse patch to its four children sets every interior fine cell, preserves the mass of each coarse cell (on mapped grids through the capacity fix), on Cartesian grids stays within the range of the neighboring coarse values (on mapped grids constants are preserved if the fine areas add up), writes no cell outside the fine patch and the layers towards its siblings, and averaging the children back reproduces the coarse data exactly.", "quantifier": "all even mx = my, at least two ghost layers, all data, all nonzero areas", "why_tests_cant": "all sizes and values", "anchors": ["src/patches/clawpatch/fort_4.6/fclaw2d_clawpatch46_interpolate.f: fclaw2d_clawpatch46_fort_interpolate2fine", "src/patches/clawpatch/fort_4.6/fclaw2d_clawpatch46_interpolate.f: fclaw2d_clawpatch46_fort_fixcapaq2", "src/patches/clawpatch/fclaw2d_clawpatch_utils.f: fclaw2d_clawpatch_compute_slopes"]}
{"id": "C21", "title": "The slope limiter creates no new extrema and is exact for linear data", "statement": "The slope used for coarse-to-fine interpolation vanishes at extrema, has the sign of both one-sided differences, is bounded by twice each one-sided difference and by the centered difference, is symmetric in its arguments, and equals the common slope for linear data.", "quantifier": "all pairs of one-sided differences", "why_tests_cant": "real-valued inputs", "anchors": ["src/patches/clawpatch/fclaw2d_clawpatch_utils.f: fclaw2d_clawpatch_compute_slopes"]}
{"id": "C22", "title": "Ghost cells across a face are filled completely with the neighbor's cells", "statement": "Copying from a same-size neighbor fills each ghost cell beyond the face with the value of the geometrically coinciding interior cell of the neighbor, all mbc layers, nothing else is written, and no cell outside the neighbor's interior is read.", "quantifier": "all mx = my, mbc <= mx, faces, orientations, neighbors in the same or another block, data, rounding modes", "why_tests_cant": "all sizes and orientations", "anchors": ["src/patches/clawpatch/fort_4.6/fclaw2d_clawpatch46_copy.f: fclaw2d_clawpatch46_fort_copy_face", "src/patches/clawpatch/fclaw2d_clawpatch_utils.f: fclaw2d_clawpatch_build_transform_same"]}
{"id": "C23", "title": "Coarse ghost cells at a refinement boundary are filled exactly once by the two fine neighbors", "statement": "Averaging from the two half-size neighbors fills every coarse ghost cell beyond the face, each from exactly one of the two fine patches, with the mean of the four fine interior cells covering it.", "quantifier": "all even mx = my, mbc with 2*mbc <= mx, faces, orientations, positions, data, rounding modes", "why_tests_cant": "all sizes and positions", "anchors": ["src/patches/clawpatch/fort_4.6/fclaw2d_clawpatch46_average.f: fclaw2d_clawpatch46_fort_average_face", "src/patches/clawpatch/fclaw2d_clawpatch_utils.f: fclaw2d_clawpatch_is_valid_average"]}
{"id": "C24", "title": "Flux correction makes the scheme conservative across refinement boundaries", "statement": "With time_sync and both corrections on, from one complete synchronisation to the next the total of each conserved quantity over all patches changes only by what the patches recorded as entering through the physical boundary: whatever the Riemann solver computed on either side of an interface, each cell at the interface is corrected by the difference of the two recorded fluxes over its area (by half of it at same-level interfaces). This needs at least two layers of ghost cells; with one layer, which the options accept, the correction writes outside its scratch array.", "quantifier": "all forests of square patches with an even number of cells, at least two ghost layers, all distributions over processes, solutions, fluxes, step sizes, orders of the steps, level ranges, and Riemann solvers satisfying the flux-difference splitting identity", "why_tests_cant": "real-valued inputs and unbounded patch sizes", "anchors": ["src/solvers/fc2d_clawpack4.6/fortran_source/clawpack46_time_sync.f", "src/patches/clawpatch/fclaw2d_clawpatch_conservation.c", "src/fclaw2d_time_sync.c"]}
{"id": "C25", "title": "Conservation registers survive packing and are cleared once per synchronisation", "statement": "Packing and unpacking the conservation registers of a patch reproduces them exactly and uses exactly the advertised number of values; after a complete synchronisation every register of every patch at every level is zero, and no register is cleared before it has been used.", "quantifier": "all mx, my, meqn, register contents, forests and level ranges", "why_tests_cant": "all sizes and forests", "anchors": ["src/patches/clawpatch/fclaw2d_clawpatch_conservation.c: fclaw2d_clawpatch_time_sync_pack_registers", "src/patches/clawpatch/fclaw2d_clawpatch_conservation.c: fclaw2d_clawpatch_time_sync_reset", "src/fclaw2d_time_sync.c"]}
{"id": "C26", "title": "Tagging is decided by the criterion on the cells of the patch", "statement": "A patch is tagged for refinement exactly if the criterion holds for at least one of its cells; a family is tagged for coarsening exactly if the criterion fails on all cells of all four siblings, and never during initialisation; the running minimum and maximum passed to the criterion bound every value seen so far.", "quantifier": "all sizes, data and criteria", "why_tests_cant": "arbitrary criteria", "anchors": ["src/patches/clawpatch/fort_4.6/fclaw2d_clawpatch46_tag4refinement.f", "src/patches/clawpatch/fort_4.6/fclaw2d_clawpatch46_tag4coarsening.f"]}
{"id": "C27", "title": "Ghost exchange protocol", "statement": "All processes make the same exchange calls. A begin, end or delete without an exchange object, an end without a begin and a begin during an exchange are rejected. Calls in protocol order never fail and never deadlock. The ghost data a process holds after its k-th end is, for every ghost patch on an exchanged level, the data the owner had at its k-th begin (time-interpolated data on the level below the range if asked for), ghost patches more than one level below the range keep their data, and all buffers are released exactly once. (Not rejected by the code: deleting the object during an exchange. A partial range without time interpolation rewrites the level just below the range from old data.)", "quantifier": "all sequences of exchange calls, partitions and level ranges up to the finest level, and all interleavings of the processes and of computation with communication", "why_tests_cant": "all call histories and message interleavings", "anchors": ["src/forestclaw2d.c: fclaw2d_domain_ghost_exchange_begin", "src/forestclaw2d.c: fclaw2d_domain_ghost_exchange_end", "src/fclaw2d_exchange.c"]}
{"id": "C28", "title": "Indirect neighbor information agrees with the owner's", "statement": "For a ghost patch, fclaw2d_domain_indirect_face_neighbors and fclaw2d_domain_indirect_corner_neighbor report the neighbor relation its owner sees, restricted to indirect neighbors: patches that belong to a process other than the ghost's owner and our own and that are ghosts here, with the right rank, ghost index, block, face or corner and sub-face. Every other neighbor is reported as boundary with rank and number -1.", "quantifier": "all forests, partitions, ghost layers and neighbor relations, 2D and 3D", "why_tests_cant": "distributed state over all partitions", "anchors": ["src/forestclaw2d.c: fclaw2d_domain_indirect_begin", "src/forestclaw2d.c: fclaw2d_domain_indirect_end", "src/forestclaw2d.c: fclaw2d_domain_indirect_neighbors"]}
{"id": "C29", "title": "Serialized sections run in rank order, one at a time", "statement": "Between fclaw2d_domain_serialization_enter and _leave at most one process executes if the section is used once or a collective operation separates two uses; in every case a process enters for the j-th time only after all lower-ranked processes have left j times, no schedule deadlocks whether or not messages are buffered, and every schedule ends. Used repeatedly without a collective operation the sections of different processes can overlap.", "quantifier": "all numbers of processes, all numbers of repetitions and all schedules", "why_tests_cant": "all interleavings", "anchors": ["src/forestclaw2d.c: fclaw2d_domain_serialization_enter", "src/forestclaw2d.c: fclaw2d_domain_serialization_leave"]}
{"id": "C30", "title": "Every searched point is assigned to exactly one patch", "statement": "fclaw2d_domain_search_points assigns each point contained in some patch to exactly one process and patch - the smallest matching patch number on the lowest-ranked process that contains it - and -1 everywhere else; the result is the same in whichever order the search visits patches.", "quantifier": "all point sets, forests, partitions and visiting orders", "why_tests_cant": "all interleavings and partitions", "anchors": ["src/fclaw2d_convenience.c: fclaw2d_domain_search_points", "src/fclaw2d_convenience.c: search_point_fn"]}
{"id": "C31", "title": "Ray integrals are the sum over all intersected leaves", "statement": "fclaw2d_domain_integrate_rays returns for each ray the sum of the contributions of exactly the local leaves whose ancestors all report an intersection, summed over all processes, independent of the partition.", "quantifier": "all forests, partitions, intersection callbacks consistent with nesting", "why_tests_cant": "all trees and partitions", "anchors": ["src/fclaw2d_convenience.c: fclaw2d_domain_integrate_rays", "src/fclaw2d_convenience.c: integrate_ray_fn"]}
{"id": "C32", "title": "Overlap exchange answers every query point", "statement": "In fclaw2d_overlap_exchange every query point to which a leaf of the producer domain contributes is interpolated and the answer is stored back at the point's own position in the query array: the point receives exactly one call for each leaf of the lowest-ranked process with a contributing leaf; other points are unchanged. The exchange cannot deadlock, ends on all processes and violates no assertion. (That a point in leaves of several processes receives the contributions of all of them is refuted.)", "quantifier": "all point sets, partitions of producer and consumer, callbacks that follow the documentation, and interleavings of the processes and orders of message arrival", "why_tests_cant": "answers depend on the interleaving of searches, notifications and messages of all processes", "anchors": ["src/fclaw2d_convenience.c: fclaw2d_overlap_exchange", "src/fclaw2d_convenience.h: fclaw2d_interpolate_point_t"]}
{"id": "C33", "title": "Packed values are read back unchanged", "statement": "fclaw_unpack_* applied to the output of fclaw_pack_* returns the value (strings including the null string, ints, sizes, doubles), consumes exactly the bytes written, and fclaw_packsize_string announces exactly that number.", "quantifier": "all strings without embedded zero, all values, any surrounding buffer contents", "why_tests_cant": "infinitely many values", "anchors": ["src/fclaw_packing.c"]}
{"id": "C34", "title": "Packed options are read back unchanged on another process", "statement": "Unpacking packed options (ForestClaw, clawpatch, clawpack 4.6) yields options equal to the original in every scalar, enumeration, flag array and string field other than the raw pointers regression_check and tout, using exactly packsize bytes. (The stronger statement including regression_check is false of the code: that string is sent as the sender's address.)", "quantifier": "all option values", "why_tests_cant": "all strings and arrays; pointer validity across processes", "anchors": ["src/fclaw_options.c: options_pack", "src/fclaw_options.c: options_unpack", "src/fclaw_options.c: options_packsize"]}
{"id": "C35", "title": "Packed global state is read back unchanged", "statement": "fclaw2d_global_unpack of fclaw2d_global_pack output restores current time, time step and every registered options package under its own key, consuming exactly fclaw2d_global_packsize bytes, for any set of packages whose own pack routines round-trip.", "quantifier": "all sets of packages", "why_tests_cant": "unbounded nesting of user packages", "anchors": ["src/fclaw2d_global.c: fclaw2d_global_pack", "src/fclaw2d_global.c: fclaw2d_global_unpack", "src/fclaw2d_global.c: fclaw2d_global_packsize"]}
{"id": "C36", "title": "Pointer map: last insertion wins and every value is destroyed exactly once", "statement": "fclaw_pointer_map_get returns the value of the last insertion under the key; each inserted value with a destructor is destroyed exactly once, when it is replaced or when the map is destroyed, and never earlier.", "quantifier": "all sequences of operations", "why_tests_cant": "all histories", "anchors": ["src/fclaw_pointer_map.c"]}
{"id": "C37", "title": "Timers accumulate exactly the started-stopped intervals", "statement": "A timer's cumulative value is the sum of the lengths of all completed start/stop intervals; starting a running timer or stopping a stopped one aborts.", "quantifier": "all histories of start/stop and clocks", "why_tests_cant": "all histories", "anchors": ["src/fclaw_timer.c"]}
{"id": "C38", "title": "Integer power", "statement": "pow_int(base, exp) returns base^exp for every non-negative exponent whenever base^(2^(number of bits of exp)) is representable, in particular for all powers of two up to 2^15, with no integer overflow on the way. (The stronger statement, whenever the result itself is representable, is false of the code: pow_int(2,16) overflows; with wrap-around arithmetic it is true.)", "quantifier": "all bases and exponents", "why_tests_cant": "all exponents; undefined behaviour is invisible to tests", "anchors": ["src/fclaw_math.c: pow_int"]}
{"id": "C39", "title": "Gauge samples are neither lost, duplicated nor reordered", "statement": "For a buffer length of at least 1, every gauge sample taken is written to the gauge file exactly once and in time order, however long the buffer and however the gauge moves between processes; sampling times are spaced by at least min_time_increment (counted from t1) within [t1,t2] and do not depend on the partition. A buffer length of 0 is accepted by the options but stores the first sample outside the buffer.", "quantifier": "all sequences of updates, regrids (gauge migrations), buffer lengths, times, numbers of processes and orders of execution within a collective call", "why_tests_cant": "all histories", "anchors": ["src/fclaw_gauges.c: gauge_update", "src/fclaw_gauges.c: fclaw_locate_gauges", "src/fclaw_gauges.c: gauge_finalize"]}
{"id": "C40", "title": "Every gauge in the domain gets exactly one location slot", "statement": "If every gauge lies in exactly one block, which holds in a brick for gauges inside the domain and off the inner block edges, gauge initialisation assigns each gauge its block and one result slot of its own, with the per-block offsets describing exactly these gauges and staying within the allocated arrays. A gauge on an edge between blocks, any gauge in a multi-block domain that is no brick, and a gauge outside the domain violate this: the coordinate array overflows or the next search fails an assertion.", "quantifier": "all gauge positions and block arrangements", "why_tests_cant": "all positions, in particular on block boundaries", "anchors": ["src/fclaw_gauges.c: gauge_initialize"]}
{"id": "C41", "title": "File sections are disjoint, aligned and self-describing", "statement": "A ForestClaw data file consists of a 112 byte header and the sections in the order of the calls, without gaps: for each section a 64 byte header with kind, size and string, the data, and 2 to 16 bytes of padding to the next multiple of 16. From the bytes alone a reader recovers the file string and kind, size, string and data of every section. Strings of more than 47 characters and sizes of more than 13 digits are refused. The number of data bytes of a section must not be 15 modulo 16: then the padding does not fit and the call fails (refuted for these sizes); the sections written when a file is opened never have such a size.", "quantifier": "all section sizes not 15 modulo 16, strings of at most 47 characters, all sequences of sections, all partitions and orders in which processes write", "why_tests_cant": "all sizes", "anchors": ["src/fclaw2d_file.c: get_padding_string", "src/fclaw2d_file.c: fclaw2d_file_write_block_v1", "src/fclaw2d_file.c: fclaw2d_file_write_field_v1", "src/fclaw2d_file.c: fclaw2d_file_open_create_v1"]}
{"id": "C42", "title": "Files do not depend on the partition", "statement": "The bytes of a file produced by a sequence of block and field writes are the same for every number of processes and every partition of the forest; each process writes only its own byte range and the ranges tile the section.", "quantifier": "all numbers of processes, partitions, element sizes, sequences of calls and orders in which the processes reach the file, with and without MPI I/O", "why_tests_cant": "all partitions", "anchors": ["src/fclaw2d_file.c: fclaw2d_file_write_field_v1"]}
{"id": "C43", "title": "Error codes are complete", "statement": "Every error class of the MPI library is reported by the documented public code, which is zero exactly without an error, and has a message unless it is summarised as 'other I/O error' (then the program aborts: refuted). If invalid input, an error of the collective open, set-size, data-write or close calls, or an error of a header write occurs, all processes return NULL and the same code; without errors all succeed. Refuted: incomplete writes and errors of rank 0 after the header give different codes on different processes, or let rank 0 wait for processes that returned success; the public message function knows one code only.", "quantifier": "all error classes, all numbers of processes, all combinations of errors of the calls named", "why_tests_cant": "all combinations of error classes", "anchors": ["src/fclaw2d_file.c: fclaw2d_file_error_code_v1", "src/fclaw2d_file.c: fclaw2d_file_error_string_v1", "src/fclaw2d_file.c: fclaw2d_file_translate_error_code_v1"]}
{"id": "C44", "title": "Domain construction assigns consistent patch geometry and flags", "statement": "A new domain lists each process-local quadrant once in block order; each patch's extent is its exact dyadic square, its child number and first-sibling flag describe its position in its parent, its block-boundary flags are set exactly when it touches that block face, the level counts are exact, and the chain of patches per level is complete.", "quantifier": "all forests, partitions and levels", "why_tests_cant": "all trees", "anchors": ["src/fclaw2d_convenience.c: fclaw2d_domain_new", "src/fclaw2d_convenience.c: fclaw2d_patch_set_boundary_xylower"]}
{"id": "C45", "title": "Patch bookkeeping balances", "statement": "Through any sequence of initialisation, refinement at start, regridding, partitioning, computation on the patches and final reset, every patch data object that is created is deleted exactly once or handed over to the new domain: no data is deleted twice or used after deletion, the set and delete counters agree whenever a domain is reset, and nothing is left at the end. At every point in between each patch and each ghost patch has one live data object of its own, with the right block number and with data, and there are no other objects. (The patch number recorded in the object is not kept up to date: fclaw2d_patch_get_patchno returns the number the patch had when its data was made.)", "quantifier": "all histories of regrids and partitions, all meshes, all partitions and ghost layers that p4est may report", "why_tests_cant": "histories, meshes and partitions are unbounded; a leak or double deletion needs one particular order of events", "anchors": ["src/fclaw2d_patch.c: patch_data_new", "src/fclaw2d_patch.c: fclaw2d_patch_data_delete", "src/fclaw2d_patch.c: fclaw2d_patch_get_patchno", "src/fclaw2d_domain.c: fclaw2d_domain_reset", "src/fclaw2d_regrid.c: cb_fclaw2d_regrid_repopulate", "src/fclaw2d_partition.c: cb_partition_transfer", "src/fclaw2d_exchange.c: fclaw2d_exchange_setup"]}
{"id": "C46", "title": "A ghost update leaves every ghost region with contents made from the current solution", "statement": "Start a ghost update on all processes with the solution in the interiors of their own patches and anything at all in ghost cells, remote ghost copies and receive buffers. The update completes on every process, and afterwards every face half and corner region of every patch in the level range holds the result of the right routine (copy, average, interpolation, boundary condition) with the right arguments applied to regions that are themselves right, down to current (or time interpolated) interiors. The result does not depend on whether communication overlaps computation, nor on what was stored before. Before the exchange, however, faces are also copied from remote patches whose ghost copies are still old; these are overwritten later.", "quantifier": "all forests with 2:1 balance across faces and corners, all partitions, level ranges, time interpolation on or off, overlapping or not, and all earlier ghost contents", "why_tests_cant": "all forests, partitions and schedules; a stale read shows only when old contents happen to differ", "anchors": ["src/fclaw2d_ghost_fill.c: fclaw2d_ghost_update", "src/fclaw2d_face_neighbors.c", "src/fclaw2d_corner_neighbors.c"]}
{"id": "C47", "title": "Corner neighbor callbacks receive the right block numbers", "statement": "When corner ghost cells are filled, the block numbers handed to the patch routine are the blocks of the two patches, for all copies, averages and local interpolations. The exception is a fine patch whose coarse diagonal neighbor belongs to another process: the code passes the number of the fine patch within its block instead of its block number.", "quantifier": "all forests, all patches and corners, all exchange types, local and remote neighbors", "why_tests_cant": "all configurations", "anchors": ["src/fclaw2d_corner_neighbors.c: cb_corner_fill", "src/fclaw2d_corner_neighbors.c: get_corner_type"]}
{"id": "C48", "title": "Brick coordinates tile the unit square", "statement": "The brick map sends block-local coordinates to global [0,1]x[0,1] so that distinct blocks cover disjoint open sub-rectangles, the whole square is covered, and adjacent blocks agree on their common edge, in floating point to the last bit. Without a brick (one tree) the mapping function fails its assertion for every block number.", "quantifier": "all brick dimensions and points", "why_tests_cant": "all dimensions and points", "anchors": ["src/fclaw2d_map_brick.c: fclaw2d_map_c2m_brick"]}
{"id": "C49", "title": "Option arrays are parsed to the requested length", "statement": "Parsing an integer or real array option yields exactly the requested number of entries (none for a negative length): the leading blank-separated numbers of the string in order, padded with zeros; a missing string gives zeros. Integers are stored correctly when they fit an int; others are silently changed (refuted part). The solver's order, limiter and boundary arrays are those of the text.", "quantifier": "all strings and lengths", "why_tests_cant": "all strings", "anchors": ["src/fclaw_options.c: fclaw_options_convert_int_array", "src/fclaw_options.c: fclaw_options_convert_double_array"]}
{"id": "C50", "title": "Option checking rejects exactly the inconsistent settings", "statement": "The option check accepts a configuration iff, for fixed steps and equally spaced output, some whole number of steps covers the output interval up to 1e-8, the step size is controlled, and (3D) no mapping is used; grid options are accepted iff two ghost layers fit into the first direction and the refinement criterion is known. Every usable grid is accepted; that only usable grids are accepted is refuted (second direction, parity, overlap of packed layers and stencil width are not checked), as is exact division of the interval.", "quantifier": "all option values", "why_tests_cant": "all combinations", "anchors": ["src/fclaw_options.c: fclaw_options_check", "src/patches/clawpatch/fclaw2d_clawpatch_options.c: clawpatch_check"]}
{"id": "C51", "title": "Option parsing reports the most severe outcome, alike on all processes", "statement": "Option parsing lets the application go on iff every configuration file was read, the command line was understood, no package's post-processing or check asked to stop, and saving the options (root only) succeeded; otherwise the most severe outcome of all packages is returned. Processes with the same configuration agree, unless saving fails: then only the root process stops (refuted part).", "quantifier": "all numbers of files and packages, all their outcomes, all processes", "why_tests_cant": "all combinations of outcomes and failures", "anchors": ["src/fclaw_base.c: fclaw_app_options_parse", "src/fclaw_base.c: options_postprocess_core", "src/fclaw_base.h: fclaw_exit_type_t"]}
{"id": "C52", "title": "Regridding and repartitioning carry every patch's data", "statement": "When the mesh changes, a patch that is kept keeps its data, each of the four children of a refined patch gets the data interpolated from that patch for its own position, and a coarsened patch gets the average of its own four children in order (while the initial mesh is built, new patches are initialised instead). After repartitioning, a patch that stays on the process keeps its data, a patch that arrives has exactly what was received for it, and no patch has the data of another. If interpolation and averaging conserve a quantity, regridding conserves its total.", "quantifier": "all reachable states, all adaptations, all partitions", "why_tests_cant": "the index arithmetic relating old and new patches depends on the whole history of refinements and on the partition", "anchors": ["src/fclaw2d_regrid.c: cb_fclaw2d_regrid_repopulate", "src/fclaw2d_regrid.c: fclaw2d_regrid", "src/fclaw2d_initialize.c: fclaw2d_initialize", "src/fclaw2d_partition.c: fclaw2d_partition_domain", "src/forestclaw2d.c: fclaw2d_domain_iterate_adapted", "src/forestclaw2d.c: fclaw2d_domain_iterate_partitioned"]}
{"id": "C53", "title": "Interpolation to the ghost cells of a finer neighbor", "statement": "When a patch fills the ghost cells of a neighbor of half its size across a face, each fine ghost cell next to the face (up to layer 2*(mbc/2)) gets the limited linear reconstruction of the coarse cell it lies in, evaluated at its own center, for every pair of faces, either orientation and either half, inside a block and across block boundaries; no other cell changes. The reconstruction creates no new extremes, has the coarse value as its mean and reproduces affine data.", "quantifier": "all square patch sizes and equation counts, all face pairs and orientations, all positions of the patches, all coarse data, any rounding of floating point results", "why_tests_cant": "64 face pairings and orientations times all sizes, levels and positions; an index error shows only in some of them", "anchors": ["src/patches/clawpatch/fort_4.6/fclaw2d_clawpatch46_interpolate.f: fclaw2d_clawpatch46_fort_interpolate_face", "src/patches/clawpatch/fclaw2d_clawpatch_utils.f: build_transform, fclaw2d_clawpatch_is_valid_interp", "src/patches/clawpatch/fclaw2d_clawpatch_transform.c: fclaw2d_clawpatch_transform_face_half"]}
{"id": "C54", "title": "Corner ghost regions", "statement": "When two patches touch only in a corner, the corner ghost cells of the one are filled from the cells of the other that lie at the same place: a copy if they have the same size, the mean of the four (area weighted on mapped grids) if the other is finer, the limited reconstruction if the other is coarser. This holds inside a block, on the boundary between two blocks with any orientation, and where four blocks meet; no other cell changes. Where four blocks meet, interpolation requires that the block has at most 2^29 cells across at the fine level.", "quantifier": "all square patch sizes, all corners, all face pairs and orientations, all positions, all data, any rounding", "why_tests_cant": "three different kinds of corners, each with many placements, and the index transformation differs for each", "anchors": ["src/patches/clawpatch/fort_4.6/fclaw2d_clawpatch46_copy.f: fclaw2d_clawpatch46_fort_copy_corner", "src/patches/clawpatch/fort_4.6/fclaw2d_clawpatch46_average.f: fclaw2d_clawpatch46_fort_average_corner", "src/patches/clawpatch/fort_4.6/fclaw2d_clawpatch46_interpolate.f: fclaw2d_clawpatch46_fort_interpolate_corner", "src/patches/clawpatch/fclaw2d_clawpatch_transform.c: fclaw2d_clawpatch_transform_corner, fclaw2d_clawpatch_transform_corner_half"]}
{"id": "C55", "title": "Physical boundary conditions", "statement": "When physical boundary conditions are set on a level, every ghost cell of a patch behind a side that lies on the boundary of the domain gets exactly the value prescribed for that side: the value of the nearest interior cell for extrapolation; the mirror cell, with the normal velocity component reversed, for a wall. Cells not behind such a side, and patches of other levels, are unchanged; setting the conditions again changes nothing. A wall needs enough equations for the normal component (at least 2 in x, 3 in y); with fewer the routine addresses the solution out of bounds, and the option checks accept this.", "quantifier": "all patch sizes, ghost widths up to the patch size, numbers of equations, data, choices of condition per side, subsets of sides on the boundary, valid meshes", "why_tests_cant": "sizes, ghost widths, data and the combinations of sides are unbounded; corner ghost cells depend on the order of the sides", "anchors": ["src/fclaw2d_physical_bc.c: fclaw2d_physical_set_bc, fclaw2d_physical_get_bc", "src/solvers/fc2d_clawpack4.6/fc2d_clawpack46.cpp: clawpack46_bc2", "src/solvers/fc2d_clawpack4.6/fortran_source/clawpack46_bc2_default.f: clawpack46_bc2_default"]}
{"id": "C56", "title": "Error norms and conservation check", "statement": "Each time diagnostics are gathered, the printed error norms are the area weighted mean of the absolute error, the area weighted mean of its square (under the root) and the largest absolute error over all cells of all patches of the whole forest at that moment, each counted once; the printed sums are the area weighted totals of the solution; the printed difference is the one to the totals at the last gather marked as initial. The numbers do not depend on the number of processes, on the distribution or on the order of patches, nor on earlier gathers other than the initial one.", "quantifier": "all numbers of processes, all histories of gathers with changing forests, all data, mapped or not, up to rounding", "why_tests_cant": "the accumulators persist over an unbounded history of gathers and the forest and its partition change between them", "anchors": ["src/fclaw2d_diagnostics.c: fclaw2d_diagnostics_gather, fclaw2d_domain_global_sum", "src/patches/clawpatch/fclaw2d_clawpatch_diagnostics.c", "src/patches/clawpatch/fclaw2d_clawpatch_diagnostics_default.c", "src/patches/clawpatch/fort_4.6/fclaw2d_clawpatch46_diagnostics.f"]}
{"id": "C57", "title": "One step of the wave propagation solver on a patch", "statement": "For every Riemann solver pair, every supported order, limiter, capacity and (f-)wave choice, and with at least two ghost layers, one step of the patch solver only touches elements of its arrays, never uses a value that was not assigned, and gives every cell of the patch the value of the wave propagation formula of the solution in the patch and its ghost cells; the reported number is the largest Courant number of the waves used. Hence the new solution on a uniform region does not depend on how it is cut into patches; for fluctuations that are flux differences the (capacity weighted) total changes only by what passes through the sides of the patch; constant states stay exactly and no cell is influenced from more than two cells away; the limiters stay in their region. Wave and f-wave forms of a solver agree without limiters and capacity function; with a capacity function they do not (code defect). The pieces of the work array do not overlap and fit.", "quantifier": "all patch sizes, ghost widths of at least two, numbers of equations, waves and auxiliary fields, all data, Riemann solvers, orders 1/2 and 0..2, limiters 0..6, contents of work memory, block corner counts; accuracy statements in exact arithmetic, the values with any arithmetic", "why_tests_cant": "the data, the Riemann solvers, the patch layout and the contents of uninitialised work memory are unbounded", "anchors": ["src/solvers/fc2d_clawpack4.6/fc2d_clawpack46.cpp: clawpack46_step2", "src/solvers/fc2d_clawpack4.6/fortran_source/clawpack46_step2_wrap.f", "src/solvers/fc2d_clawpack4.6/fortran_source/clawpack46_step2.f", "src/solvers/fc2d_clawpack4.6/fortran_source/clawpack46_flux2.f", "src/solvers/fc2d_clawpack4.6/fortran_source/clawpack46_flux2fw.f", "src/solvers/fc2d_clawpack4.6/fortran_source/clawpack46_inlinelimiter.f", "src/solvers/fc2d_clawpack4.6/fortran_source/clawpack46_limiter.f"]}
{"id": "C58", "title": "A run on a uniform mesh is the method on one grid", "statement": "On a domain made of a brick of blocks refined uniformly, with sides joined, open or walls, a run (ghost filling after initialization, then any sequence of time steps, each followed by ghost filling) succeeds and leaves in every patch, ghost cells included, the values that the wave propagation method on one single grid of the whole domain gives from the same initial values: exactly the same numbers in any arithmetic. Hence the result does not depend on the number of processes, on the distribution of patches, on patch size, on whether messages are sent asynchronously, or on the contents of uninitialised memory. On a domain joined in both directions, and for fluctuations that are flux differences, a run keeps the total of each component in exact arithmetic. If the ghost cells are not filled at the beginning (the default of init_ghostcell), the first step uses what initialization left there and these claims fail.", "quantifier": "all numbers of processes and distributions, brick sizes, refinement levels below 30, patch sizes, numbers of equations, Riemann solvers, arithmetic, initial data, auxiliary data, sequences of steps, contents of uninitialised memory, message modes", "why_tests_cant": "the number of steps, processes, patches and the data are unbounded; agreement of runs with different layouts in every bit cannot be settled by sampling", "anchors": ["src/fclaw2d_ghost_fill.c: fclaw2d_ghost_update", "src/fclaw2d_exchange.c: fclaw2d_exchange_ghost_patches_begin, fclaw2d_exchange_ghost_patches_end", "src/patches/clawpatch/fclaw2d_clawpatch.cpp: clawpatch_copy_face, clawpatch_copy_corner, clawpatch_ghost_pack", "src/fclaw2d_update_single_step.c: fclaw2d_update_single_step", "src/fclaw2d_advance.c: fclaw2d_advance_all_levels", "src/fclaw2d_initialize.c: fclaw2d_initialize", "src/solvers/fc2d_clawpack4.6/fc2d_clawpack46.cpp: clawpack46_update", "src/fclaw_options.c: init_ghostcell"]}
{"id": "C59", "title": "The VTK file holds the forest and its solution, whatever the number of processes", "statement": "When fclaw2d_vtk_write_file (2D or 3D) returns 0, the .vtu file begins with the XML header, ends with the footer and has no byte that nobody wrote; read by the rules of the VTK format it has, for every patch of the forest and every cell of it, the right cell type, the corners of the cell in the order VTK prescribes with the coordinates that the coordinate callback gave, the values that the value callback gave, and the process, block and forest-wide number of the patch, and it has nothing else. With the callbacks for clawpatches these are the corners lower + i * dx (mapped if there is a mapping) and the interior values of the solution without ghost cells. The number of processes and the order in which they write change nothing but the array mpirank. All processes return the same value: 0, or -1 exactly if process 0 could not write header or footer.", "quantifier": "All patch sizes and numbers of equations whose byte counts fit into the integer types used, all forests, blocks and partitions (also processes without patches), all callbacks that fill their buffer, all interleavings of the writes of the processes, parallel output or one process.", "why_tests_cant": "A test writes a few small files with one partition and looks at some values; that no two processes write the same place, that no place is left out and that every index is right must hold for every size, partition and interleaving.", "anchors": ["src/patches/clawpatch/fclaw2d_clawpatch_output_vtk.c: fclaw2d_vtk_write_file, fclaw2d_vtk_write_header, fclaw2d_vtk_write_data, fclaw2d_vtk_write_field, write_position_cb, write_connectivity_cb, write_offsets_cb, write_types_cb, write_mpirank_cb, write_blockno_cb, write_patchno_cb, write_meqn_cb, fclaw2d_output_vtk_coordinate_cb, fclaw2d_output_vtk_value_cb", "src/patches/clawpatch/fclaw3dx_clawpatch_output_vtk.h: fclaw3dx_vtk_write_file", "src/forestclaw2d.c: fclaw2d_domain_iterate_patches"]}
{"id": "C60", "title": "The mappings describe the surfaces they are named after", "statement": "Every mapping of src/mappings puts each point of a block on the surface it is named after (sphere, disk, square, ring, torus). Blocks that share a face according to the connectivity agree on the coordinates of every point of that face, in the orientation of the connectivity, and blocks do not overlap: a point inside of a block is the image of no other point of any block. The cubed sphere, the five-patch square, the annulus, the latitude-longitude map, the torus and the twisted torus reach every point of their surface; the pillow maps reach every point farther than a few 1e-10 from their centre (for the sphere: and with z = 0 or z^2 at least 1e-10). The outer boundary of the disks is the unit circle. Periodic maps have the period of the brick. Ghost cell coordinates of the pillow sphere are those of the mirrored cell of the other block. set_rotate followed by rotate_map is a rotation, first about the z axis and then about the y axis, and preserves lengths, angles and orientation.", "quantifier": "all points of all blocks (all real coordinates), all parameters alpha, beta, center, angles in their admissible range", "why_tests_cant": "agreement along faces, covering and injectivity range over a continuum of points and of parameters; sampling cannot exclude a fold or a gap", "anchors": ["src/mappings/*/mapc2m_*.f", "src/mappings/scale_rot_map.f set_rotation_matrix", "src/fclaw2d_map.c set_rotate, rotate_map, scale_map, shift_map"]}
{"id": "C61", "title": "Metric terms are those of the mapping, do not depend on the history of a patch and conserve area", "statement": "For every mapping and every square patch with an even number of cells and at least one ghost layer, the metric terms can be built, from scratch or from any four finer patches. The mesh holds the images of all corners and centres. The area of a cell is the sum of the areas of the quadrilaterals into which it is divided on the finest level, whether it was computed directly or by averaging finer patches any number of times; so the area of a coarse cell is the sum of those of the fine cells that cover it, and the total area does not depend on the mesh. Face normals are the unit vectors orthogonal to the face and tangent to the surface that point to the cell with the larger index, and are not a number exactly for degenerate faces. Tangents join the corners of a face and edge lengths are their lengths. A mapping into a plane that is declared flat has the normal of the plane as surface normal and curvature zero. Neighbouring patches agree on all metric terms of the cells, faces and corners they have in common, ghost cells included. (False for patches that are not square: average_area takes mx for my and writes out of bounds.)", "quantifier": "all mappings, all patch sizes, ghost widths, levels, positions; all trees of refinement and all histories of building from scratch and from finer patches", "why_tests_cant": "the mapping is any function supplied by the user, and histories and refinement depths are unbounded; agreement between histories is an equality of sums with exponentially many terms", "anchors": ["src/patches/metric/fclaw2d_metric.cpp fclaw2d_metric_patch_build, fclaw2d_metric_patch_build_from_fine, metric_average_area_from_fine", "src/patches/metric/fclaw2d_metric_default.c", "src/patches/metric/fortran_source2d/fclaw2d_metric_default_fort.f90"]}
{"id": "C62", "title": "Block corners of the pillow sphere", "statement": "At a corner of the two blocks of the pillow sphere, the ghost cells of a patch diagonally beyond the corner get the values of the cells of the patch of the other block that are as far inside: exchanged in both directions between patches of equal size; from a finer patch, the content of the four mirrored fine cells divided by the area of the ghost cell, which is a mean of the four values if the areas match; from a coarser patch, a limited linear reconstruction in the coarse cell at the corner, which creates no new extremes and has the coarse value as mean. No other cell changes and no element outside of the arrays is used. (False in two respects: at corner 0 the average is divided by the area of another cell, and at corners 1, 2 and 3 the reconstruction is not mirrored, so that linear data are not reproduced.)", "quantifier": "all four corners, all patch sizes, ghost widths, numbers of fields, cell values and areas", "why_tests_cant": "values and areas are arbitrary; tests with constant data or equal areas cannot see which area is used or the direction of a slope", "anchors": ["src/patches/clawpatch/fclaw2d_clawpatch_pillow.c pillow_copy_block_corner, pillow_average_block_corner, pillow_interpolate_block_corner", "src/patches/clawpatch/fort_4.6/fclaw2d_clawpatch46_pillowsphere.f"]}
{"id": "C63", "title": "Extruded patches", "statement": "On patches with several layers of cells over the 2D mesh, copying, averaging and interpolating across faces and corners, averaging four siblings and interpolating to them do in each of the layers 1 to mz what the 2D routines do, with cell volumes in place of areas: the same cells get values, from the cells of the same layer only, nothing else changes, mass is conserved and interpolating and averaging back restores the values. A patch is tagged for refinement if and only if its cells, and four siblings are tagged for coarsening if and only if none of their cells in layers 1 to mz, meet the selected criterion; with difference or gradient criteria no family is tagged for coarsening that has a member tagged for refinement. Without a mapping the reported mass is the sum of values times cell volumes. (False for mapped patches: reported mass; false always: the error norms are never reported; false for the value and range criteria: a family is tagged for coarsening and its members for refinement at once; false for patches that are not square.)", "quantifier": "all numbers of cells, layers, ghost cells and fields, all relative positions and orientations of neighbors, all cell values and volumes, all thresholds", "why_tests_cant": "sizes, values and volumes are arbitrary, and tests with one layer, equal volumes or constant data cannot tell layers and volumes apart", "anchors": ["src/patches/clawpatch/fort3_4.6/fclaw3dx_clawpatch46_copy.f90", "src/patches/clawpatch/fort3_4.6/fclaw3dx_clawpatch46_average.f90", "src/patches/clawpatch/fort3_4.6/fclaw3dx_clawpatch46_interpolate.f90", "src/patches/clawpatch/fort3_4.6/fclaw3dx_clawpatch46_tag4refinement.f90", "src/patches/clawpatch/fort3_4.6/fclaw3dx_clawpatch46_tag4coarsening.f90", "src/patches/clawpatch/fort3_4.6/fclaw3dx_clawpatch46_diagnostics.f90", "src/patches/clawpatch/fort3_user/", "src/patches/clawpatch/fclaw2d_clawpatch_diagnostics.c"]}
{"id": "C64", "title": "Water on a bottom keeps its level, mass and speed between grid levels (GeoClaw)", "statement": "When GeoClaw data pass between patches of different resolution, the depth is treated through the water surface. Coarsening a patch, or filling coarse ghost cells beyond a face or at a corner, gives each coarse cell: nothing if its four fine cells are dry; otherwise a depth that is never negative, that reproduces the mean surface of the wet fine cells over the coarse bottom, limited by the fine water spread over as many cells as are wet, and a velocity no larger than those of the fine cells. If all four are wet and the coarse bottom is the mean of the fine bottom, water and momentum are conserved exactly (also for whole patches), and water at rest stays level and at rest. Refining a patch, or filling fine ghost cells, gives each fine cell the limited linear reconstruction of the surface (dry cells count as sea level) minus the fine bottom: water at rest with level or dry neighbors stays exactly level, an ocean at sea level next to dry land stays at sea level, ghost depths are never negative, and the four new cells of a wet coarse cell hold its water if the bottoms agree in the mean; coarsening them again gives back the depth. All other cells, and equations beyond the third when coarsening, keep their values. Not guaranteed by the code (refuted): new fine cells can have negative depth over high land; partly wet coarse cells can hold up to four times the water; water is lost if the coarse bottom is above the mean; refining can create larger velocities.", "quantifier": "all even patch sizes, numbers of ghost cells (at least 2 for refining), equations, aux entries, capacity functions, dry tolerances, sea levels, fine and coarse data and bottoms, all four children, faces, orientations and neighbor positions, corners, for any rounding of the coordinates", "why_tests_cant": "Conservation and exact rest must hold for every bottom, every wet/dry pattern among the four fine cells and every data value; tests use a few bathymetries.", "anchors": ["src/solvers/fc2d_geoclaw/fclaw2d_source/fc2d_geoclaw_average_fort.f: fc2d_geoclaw_fort_average2coarse, fc2d_geoclaw_fort_average_face, fc2d_geoclaw_fort_average_corner", "src/solvers/fc2d_geoclaw/fclaw2d_source/fc2d_geoclaw_interpolate_fort.f: fc2d_geoclaw_fort_interpolate2fine, fc2d_geoclaw_fort_interpolate_face, fc2d_geoclaw_fort_interpolate_corner", "src/solvers/fc2d_geoclaw/fc2d_geoclaw.cpp: fc2d_geoclaw_interpolate2fine, fc2d_geoclaw_average2coarse, fc2d_geoclaw_average_face, fc2d_geoclaw_interpolate_face"]}
{"id": "C65", "title": "The elliptic operators compute the discrete equations and their boundary conditions (ThunderEgg)", "statement": "The operators for Poisson problems (constant or variable coefficient) and for implicit steps of the heat equation give, in every cell and for every field, the left hand side of the five-point equations for the data of the patch, its neighbors' data in the ghost cells and the data continued across physical sides by the homogeneous boundary condition (value zero; for the heat equation value or slope zero, as chosen per side); only ghost cells at physical sides are changed. The operator of the patch problem needs no ghost cell, and with the modified right hand side it leaves exactly the residual of the original equations. On a uniform mesh of any number of patches the result is that of one large patch, the operator is symmetric, the equations have at most one solution (positive coefficient; a side with given value, or a negative lambda), and an insulated step of the heat equation multiplies the total by lambda. Given boundary values are moved to the right hand side: for a patch with one physical side (or values zero on all but the last one) the resulting residual is that of the data with these boundary values. The vectors handed to the solver show the cells of all patches, block by block, with their ghost cells; storing a vector writes exactly these numbers. Not guaranteed by the code (refuted): with two physical sides, as in every corner of the domain, the values of the first side are subtracted twice; only the first field of the right hand side is adjusted; a coefficient other than 1 is ignored for boundary values; the Poisson operators take every side as one with given value whatever the options say.", "quantifier": "all patch sizes, numbers of ghost cells and fields, spacings, data, coefficients, lambda, boundary conditions and values, all patterns of neighbors, all uniform meshes, all numberings of patches in blocks", "why_tests_cant": "Symmetry, uniqueness and equality of residuals are statements about all data; tests solve a few manufactured problems to a tolerance.", "anchors": ["src/solvers/fc2d_thunderegg/operators/fc2d_thunderegg_fivepoint.cpp: fivePoint", "src/solvers/fc2d_thunderegg/operators/fc2d_thunderegg_varpoisson.cpp: varpoisson", "src/solvers/fc2d_thunderegg/operators/fc2d_thunderegg_heat.cpp: heat", "src/solvers/fc2d_thunderegg/fort_4.6/thunderegg_apply_bc_default.f90: thunderegg_fort_apply_bc_default", "src/solvers/fc2d_thunderegg/fc2d_thunderegg_vector.cpp: fc2d_thunderegg_get_vector, fc2d_thunderegg_store_vector"]}
{"id": "C66", "title": "One step of the clawpack 5.x solver on a patch", "statement": "For every Riemann solver pair, every supported order, limiter 0 to 5, capacity and (f-)wave choice, and with at least two ghost layers, one step of the 5.x patch solver whose options were processed last only touches elements of its arrays, never uses a value that was not assigned, gives every cell of the patch the value of the wave propagation formula, leaves the ghost cells alone (except where three blocks meet) and reports the largest Courant number of the waves used. For waves it gives the same values and Courant number as the 4.6 solver, in any arithmetic; the solution does not depend on how a uniform region is cut into patches; for fluctuations that are flux differences the capacity weighted total changes only by what passes through the sides; constant states stay; wave and f-wave forms of a solver agree without limiters, with a capacity function as well. False of the code: the same where three blocks meet (the sweep in y uses the corner cells of the sweep in x); limiter 6 (silently minmod); two solvers with different options in one program (the options processed last are used by both).", "quantifier": "all patch sizes, ghost widths of at least two, numbers of equations, waves and auxiliary fields, all data, Riemann solvers, orders 1/2 and 0..2, limiters 0..5, sequences of processed options, contents of work memory; balance statements in exact arithmetic, the values with any arithmetic", "why_tests_cant": "the data, the Riemann solvers, the patch layout, the contents of uninitialised work memory and the order in which options are processed are unbounded", "anchors": ["src/solvers/fc2d_clawpack5/fc2d_clawpack5.cpp: clawpack5_step2", "src/solvers/fc2d_clawpack5/fc2d_clawpack5_options.c: clawpack5_check", "src/solvers/fc2d_clawpack5/fortran_source/clawpack5_set_amr_module.f90", "src/solvers/fc2d_clawpack5/fortran_source/clawpack5_step2_wrap.f", "src/solvers/fc2d_clawpack5/fortran_source/clawpack5_step2.f90", "src/solvers/fc2d_clawpack5/fortran_source/clawpack5_flux2.f", "src/solvers/fc2d_clawpack5/fortran_source/clawpack5_inlinelimiter.f"]}
{"id": "C67", "title": "The patch routines for the 5.x data layout do what those for the 4.6 layout do", "statement": "With the option claw-version = 5 (data stored with the equation index first) a patch is handled by its own set of routines. For every patch size, data, map and neighbor orientation: with two or three layers of ghost cells, interpolation to the ghost cells of a finer face or corner neighbor gives exactly the values the 4.6 routines give, so two layers of ghost cells hold the limited reconstruction of the coarse data; interpolation to a new fine patch gives the same values and keeps the mean (on a mapped grid the mass) of every coarse cell; interpolation in time fills the two layers of cells inside the boundary with the values at the requested time and leaves everything else alone; with two layers of ghost cells a packed patch arrives unchanged at the receiver; and a patch is tagged for refinement exactly when the 4.6 routine tags it, for every test that looks at the values of a cell and at minimum, maximum and surrounding values of the first component. The restrictions are needed, the code does not check them: with four layers of ghost cells the outer two are not filled by interpolation; with three layers the third layer is not interpolated in time; with one or three layers packing a patch for another process always fails; and with a threshold variable other than the first the criteria minmax, difference and gradient read beyond the scalars they are given.", "quantifier": "all patch sizes, numbers of equations, data, areas, relative positions of neighbors, refinement tests, and times between two levels", "why_tests_cant": "the example programs use two ghost layers, one orientation at a time and the first component; equality with the other set of routines has to hold for all data and orientations, and the failures appear only for option values that no example sets", "anchors": ["src/patches/clawpatch/fort_5.0/fclaw2d_clawpatch5_interpolate.f: interpolate_face, interpolate_corner, interpolate2fine", "src/patches/clawpatch/fort_5.0/fclaw2d_clawpatch5_timeinterp.f", "src/patches/clawpatch/fort_5.0/fclaw2d_clawpatch5_local_ghost_pack.f", "src/patches/clawpatch/fort_5.0/fclaw2d_clawpatch5_tag4refinement.f", "src/patches/clawpatch/fclaw2d_clawpatch.cpp: clawpatch_setup_timeinterp, clawpatch_ghost_comm, clawpatch_tag4refinement"]}
{"id": "C68", "title": "Text frames hold the whole forest, whatever the schedule of the processes", "statement": "With ASCII output, once all processes have written a frame, a reader of the Clawpack text format finds in fort.tNNNN and fort.qNNNN the time, the numbers of equations and auxiliary values, and every patch of the forest exactly once and in order, with its number, level, block, owner, position and the values of its cells. This holds for any number of processes, any sequence of frames and any interleaving of the processes (without any other synchronisation), whatever the files held before; other files are left alone; at any earlier moment the file of a frame is the old one or a beginning of the new one; no schedule blocks; the partition changes the recorded owner only. GeoClaw files have the surface height as one more value. Exceptions (refuted): values below 1e-99 are set to zero in the solution itself; with a prefix other than fort the values go to a file that is never emptied while fort.q stays empty, and with a prefix of more than five letters all frames go to one file; the name of frame 10000 overflows its buffer (GeoClaw: overwrites frame 0); patch numbers from 100000 on are lost; more than 20 equations stop the run; GeoClaw with 5 equations writes cells over two lines.", "quantifier": "all forests, partitions, frame sequences, initial file contents and process schedules; all points at which the run may be interrupted", "why_tests_cant": "all interleavings of any number of processes, all interruption points, all forests", "anchors": ["src/patches/clawpatch/fclaw2d_clawpatch_output_ascii.c: fclaw2d_clawpatch_output_ascii", "src/patches/clawpatch/fclaw2d_clawpatch_output_ascii.c: cb_clawpatch_output_ascii", "src/patches/clawpatch/fclaw2d_clawpatch_output_ascii.c: fclaw2d_clawpatch_time_header_ascii", "src/patches/clawpatch/fort_4.6/fclaw2d_clawpatch46_output_ascii.f", "src/solvers/fc2d_geoclaw/fc2d_geoclaw_output_ascii.c", "src/solvers/fc2d_geoclaw/fclaw2d_source/fc2d_geoclaw_output_ascii_fort.f", "src/forestclaw2d.c: fclaw2d_domain_serialization_enter"]}
{"id": "C69", "title": "GeoClaw refines and coarsens by the regions first and by the water second", "statement": "In a GeoClaw run a patch is marked for refinement exactly when all the refinement regions that meet it at the current time ask for a finer level, or the regions leave it open (not all of them forbid a finer level) and some cell of it is wet and has its surface farther from sea level than the tolerance or moves faster than a tolerance of its level or a finer one. Four siblings are marked for coarsening exactly when the regions that meet their parent do not all keep them and either all ask for a coarser level or no cell of the four exceeds half the tolerances. Hence regions never refine and coarsen the same place at the same time, no patch is made finer than all its regions allow, and, where every region asks for level L at least, a point of an active region has a patch of level L after at most L regriddings and for as long as the region is active, whatever the water does. What does not hold: with two overlapping regions the larger minimum is not enforced (the code comment says it is); in the initial regridding families are always allowed to coarsen (the comment says they never are); and a patch refined because of its speed can give children that are coarsened at once with the same water.", "quantifier": "every patch and family of patches, of any size, place and level; every list of regions with any level and time ranges; all data in the cells and all tolerances; every history of regriddings, with arbitrary changes of the data in between and arbitrary additional refinements by 2:1 balance", "why_tests_cant": "a test runs one set of regions, one bathymetry and one wave; that regions win over the water, that a level once reached is kept and that regions cannot make the grid oscillate must hold for every combination of overlapping regions and every flow", "anchors": ["src/solvers/fc2d_geoclaw/fc2d_geoclaw.cpp: geoclaw_patch_tag4refinement, geoclaw_patch_tag4coarsening", "src/solvers/fc2d_geoclaw/fclaw2d_source/fc2d_geoclaw_test_regions.f90: fc2d_geoclaw_test_regions, fc2d_geoclaw_P_intersects_R", "src/solvers/fc2d_geoclaw/fclaw2d_source/fc2d_geoclaw_flag2refine_fort.f90: fc2d_geoclaw_flag2refine", "src/solvers/fc2d_geoclaw/fclaw2d_source/fc2d_geoclaw_tag4refinement_fort.f90", "src/solvers/fc2d_geoclaw/fclaw2d_source/fc2d_geoclaw_tag4coarsening_fort.f90: fc2d_geoclaw_test_coarsen", "src/fclaw2d_regrid.c: cb_fclaw2d_regrid_tag4refinement, cb_regrid_tag4coarsening"]}
{"id": "C70", "title": "The initial mesh is the one the refinement criterion asks for", "statement": "After initialisation every patch of the mesh has a level between minlevel and maxlevel and holds exactly the data the user's initialisation gives for its place, and, if the refinement and coarsening criteria do not contradict each other on the initial data, every patch below maxlevel lies at or below a place that the criterion does not want refined: the number of passes is enough and stopping early loses nothing, whatever additional refinement 2:1 balance or smoothing makes. Without such additional refinement the mesh is determined: its patches are the first places, going down from the uniform mesh of minlevel, that are not wanted finer, or those at maxlevel. The default criterion of clawpatch meets the condition for all options and data. GeoClaw's does not: while the mesh is built every family that no region holds is marked for coarsening, so the last pass takes the finest level away where the wave is above the tolerance.", "quantifier": "every initial condition, every refinement and coarsening criterion as functions of place and data, every minlevel and maxlevel, any number of blocks, every choice of what balance and smoothing refine and of which marked families are really coarsened", "why_tests_cant": "a test runs one initial condition with one criterion; that the loop has enough passes and that its early exit is right must hold for every criterion and every depth of refinement", "anchors": ["src/fclaw2d_initialize.c: fclaw2d_initialize", "src/fclaw2d_regrid.c: cb_fclaw2d_regrid_tag4refinement, cb_regrid_tag4coarsening, cb_fclaw2d_regrid_repopulate", "src/patches/clawpatch/fclaw2d_clawpatch.cpp: clawpatch_tag4coarsening", "src/solvers/fc2d_geoclaw/fc2d_geoclaw.cpp: geoclaw_patch_tag4coarsening"]}
{"id": "C71", "title": "The grids of the patches tile the domain", "statement": "In exact arithmetic, for every mesh whose quadrants cover each block once, every point of [ax,bx) x [ay,by) lies in exactly one cell of exactly one patch, on one block and on every brick of blocks; with a mapping the same holds for the unit square of each block. The cells of a patch of level l have width (bx - ax) / (mi mx 2^l), and the grids of the children halve those cells in place. In floating point, for every rounding that keeps the order and is exact on representable numbers, all patches of all blocks take their edges from one non-decreasing table of grid lines, so patches that meet, also across blocks and levels, agree exactly on the common line, and the first line is ax. The last line is bx if bx - ax is a double; otherwise it need not be.", "quantifier": "every domain size, cell count, brick shape, mesh with any levels, point and order preserving rounding", "why_tests_cant": "a test looks at a few meshes; overlap or gaps between patches depend on the combination of level, block position and rounding", "anchors": ["src/patches/clawpatch/fclaw2d_clawpatch.cpp: clawpatch_define", "src/fclaw2d_convenience.c: fclaw2d_patch_set_boundary_xylower", "src/mappings/fclaw2d_map_nomap_brick.c: fclaw2d_map_c2m_nomap_brick", "src/fclaw2d_map_brick.c: fclaw2d_map_c2m_brick"]}
{"id": "C72", "title": "The picture of the mesh", "statement": "The TikZ picture draws, for every patch, the rectangle of its quadrant in units of the finest level, and the rectangles cover the picture once: in exact arithmetic for every brick, and in floating point when the numbers of blocks are powers of two. For other numbers of blocks it can be wrong in double precision: of five blocks in a row the fourth is drawn on top of the third. On one process the file is the preamble, the patches in order and the end, however the C library buffers. On several processes nothing is lost or duplicated and the run always ends, but the patches are printed to a buffer that is only emptied after the serialized section is left: texts of processes may come in any order if each fits the buffer, and otherwise a patch of one process can end up in the middle of another's.", "quantifier": "every brick, mesh, level, rounding, number of processes, schedule and buffering of the C library", "why_tests_cant": "the order of the file depends on the schedule of the processes and the buffering; the rectangles on rounding for each number of blocks", "anchors": ["src/fclaw2d_output_tikz.c: fclaw2d_output_frame_tikz, cb_tikz_output, convert_brick", "src/fclaw_math.c: pow_int", "src/forestclaw2d.c: fclaw2d_domain_serialization_enter, fclaw2d_domain_serialization_leave"]}
{"id": "C73", "title": "GeoClaw: dry cells, moving bed and source terms", "statement": "Before a step GeoClaw makes every depth below the dry tolerance non-negative and puts that water to rest, in the patch and its ghost cells, and touches nothing else. The bed of a patch is recomputed exactly in the steps that start while some motion of the bed has begun and some has not ended, and is then the bed of that moment; if a step starts at the moment the motion ends, the patch has the final bed for ever after. Without such a step it does not: a patch keeps a bed from before the end of the motion. Without any moving topography every step recomputes the bed. The source terms change no depth, no ghost cell and no component but the momentum. Friction multiplies the momentum by a factor in (0,1] that solves Manning's law implicitly with the coefficient of the bed elevation. Wind pushes in its own direction and pressure down its gradient, in cells deeper than the tolerance only. Water at rest under still air of uniform pressure stays at rest. The Coriolis term is right to first order only: northward flow loses momentum to second order, since the new eastward momentum is used for the new northward one.", "quantifier": "for all patch sizes, depths, momenta, bed elevations, tolerances, tables of Manning coefficients, sets of moving topography files, sequences of step times, and combinations of source terms", "why_tests_cant": "The claims range over all states of the water, all coefficients and all sequences of step times; the missed final bed needs a step that jumps over the end of the motion, and the Coriolis error is of second order in the time step.", "anchors": ["src/solvers/fc2d_geoclaw/fortran_source/geoclaw_b4step2_fort.f90: fc2d_geoclaw_b4step2, fc2d_geoclaw_get_dtopo_interval, fc2d_geoclaw_check_dtopotime", "src/solvers/fc2d_geoclaw/fortran_source/geoclaw_src2_fort.f90: fc2d_geoclaw_src2", "src/solvers/fc2d_geoclaw/geolib_source/topo_update.f90: topo_update", "src/solvers/fc2d_geoclaw/geolib_source/geoclaw_module.f90: coriolis, spherical_distance", "src/solvers/fc2d_geoclaw/fc2d_geoclaw.cpp: geoclaw_update, geoclaw_b4step2, geoclaw_src2"]}
{"id": "C74", "title": "Timers never abort a run, exclusive timers never overlap, and the timing report adds up", "statement": "Starting a timer that is running or stopping one that is not aborts the program. In a program that initialises, runs (any output style, any options, any number of levels, patches, steps, regrids and rejected steps, any mix of runs and elliptic solves) and finalises, this never happens, and only the wall clock is still running when the report is made. At every moment at most one of the timers the report calls exclusive is on, and detailed timers (ghost filling steps, copy/average/interpolate, step2, time sync, tagging, ...) are on only inside the timers they detail. The report shows for each timer exactly the time during which it was on; no time is negative or exceeds the wall clock; the exclusive times together do not exceed it. The column UNACCOUNTED is not the remainder (refuted): the sums of exclusive times are cut to whole seconds first, so it is too large by up to 1 s (summary) or 2 s; it is never negative. The mean grid counts are rounded down to whole numbers, so they are not the means (refuted). In an OpenMP build the clawpack 5.x solver uses the plain timers inside the patch update, so two threads can abort the run (refuted); clawpack 4.6 is safe.", "quantifier": "all executions of the control flow (all option settings, grids, step counts and rejected steps over-approximated by nondeterministic choice), all non-decreasing clock readings, all counter values", "why_tests_cant": "Whether a timer is started twice depends on the path taken through nested calls (subcycling, regridding, partitioning, rejected steps); a test follows a few paths, and sums of measured times differ from run to run.", "anchors": ["src/fclaw_timer.c:fclaw2d_timer_start", "src/fclaw_timer.c:fclaw2d_timer_stop", "src/fclaw_timer.c:fclaw2d_timer_report", "src/fclaw2d_ghost_fill.c:fclaw2d_ghost_update", "src/fclaw2d_advance.c:fclaw2d_advance_all_levels", "src/fclaw2d_regrid.c:fclaw2d_regrid", "src/fclaw2d_partition.c:fclaw2d_partition_domain", "src/fclaw2d_exchange.c:fclaw2d_exchange_setup", "src/fclaw2d_initialize.c:fclaw2d_initialize", "src/fclaw2d_run.c:fclaw2d_run", "src/solvers/fc2d_clawpack5/fc2d_clawpack5.cpp"]}
{"id": "C75", "title": "GeoClaw's time steps resolve a moving sea floor", "statement": "In a GeoClaw run with output style 1 or 3, solver calls follow each other without gap from time 0, frames of output style 1 are written at k*tfinal/nout whatever the motion, and every solver call that starts while the sea floor moves is shorter than dt_max_dtopo. An outer step that meets the motion is cut into at least two calls of positive length that cover it exactly; none crosses the start of the motion, and one crosses its end only if less than one percent of the outer step is left after it; the CFL number reported is not below that of any call. After the motion a step is that of the core library. Limits that are proved: steps that meet the motion are never retaken and the next step size is scaled by the CFL number of the short calls, so that calls above max_cfl are accepted; a motion at one instant inside a step makes the number of calls 0/0; output style 4 does not look at the motion; output style 3 without advance_one_step gathers diagnostics (and hence gauges) only once, at time 0.", "quantifier": "every solver, regridding, reduction, option set, interval of motion, limit, number of loop passes and initial solution", "why_tests_cant": "The way an outer step meets the interval and the number of calls depend on adaptive step sizes; tests use one event and one sequence of steps.", "anchors": ["src/solvers/fc2d_geoclaw/fc2d_geoclaw_run.c: step_dtopo, outstyle_1, outstyle_3, outstyle_4, fc2d_geoclaw_run"]}
{"id": "C76", "title": "Boundary conditions of extruded patches fill exactly the cells beyond the domain", "statement": "The default boundary conditions of the 3D clawpack 4.6 solver give every cell of a patch the value of its image: beyond an open side (1) the nearest cell, beyond a wall (3) the mirror image with the velocity normal to the wall (component 2, 3 or 4) negated, beyond a periodic bottom or top (2) the cell at the other end of the column; edges and corners get the image in two or three directions. Horizontal sides count only where the patch lies on the boundary of the domain, bottom and top always. Interior cells and ghost cells beyond no active side keep their values, and a second application changes nothing. Limits that are proved: the number 2 on a horizontal boundary side leaves the ghost cells as they were (2D stops); the number 0 stops the program, at bottom and top for every patch; a wall with fewer equations than its velocity component writes outside of the array; with fewer layers than ghost cells a wall copies old ghost values.", "quantifier": "every patch size with at least as many cells in each direction as ghost cells, every number of equations, choice of conditions, set of boundary faces, and solution", "why_tests_cant": "Edges and corners combine up to three sides; tests use few sizes and combinations and rarely walls and periodic columns together.", "anchors": ["src/solvers/fc3d_clawpack46/fortran_source/fc3d_clawpack46_bc3_default.f90: clawpack46_bc3_default", "src/solvers/fc3d_clawpack46/fc3d_clawpack46.cpp: clawpack46_bc3"]}
{"id": "C77", "title": "GeoClaw: the bathymetry of a cell is the exact average of the finest topography over it", "statement": "In Cartesian coordinates and exact arithmetic, for any list of topography files in order of resolution, the bathymetry of a grid cell is the integral over the cell of the surface that at each point interpolates the data of the first file covering it, divided by the cell's area, however cell, grid lines and files are placed relative to each other. So it lies between the lowest and highest value of that surface over the cell, does not depend on coarse data under finer data or on data elsewhere, and the integrals over the four parts of a divided cell add up to that of the cell. The program stops exactly for cells without data in their interior. The area used by the start-up coverage check is the area covered by at least one file, and equals the domain's area exactly if every point has data. The topography arrays are read within bounds. Refuted: passing the start-up check does not mean that the cells of the domain are covered, since 1% may be missing; then a cell stops the run or is averaged with height 0.", "quantifier": "every list of topography files (any placement, spacing, size and heights), every cell rectangle, every sufficiently fine partition, every subdivision point", "why_tests_cant": "tests compare a few cells with one or two files; the recursion over overlapping files with its corrections, and the index ranges at cell edges on or off grid lines, have unboundedly many configurations", "anchors": ["src/solvers/fc2d_geoclaw/geolib_source/cellgridintegrate2.f: cellgridintegrate", "src/solvers/fc2d_geoclaw/geolib_source/topointegral.f: topointegral", "src/solvers/fc2d_geoclaw/geolib_source/bilinearintegral.f: bilinearintegral", "src/solvers/fc2d_geoclaw/geolib_source/topo_module.f90: rectintegral, topoarea, intersection, read_topo_settings", "src/solvers/fc2d_geoclaw/fortran_source/geoclaw_setaux_fort.f90: geoclaw_setaux_fort"]}
{"id": "C78", "title": "GeoClaw: the bathymetry of a patch depends only on where its cells are", "statement": "In Cartesian coordinates and exact arithmetic, when the bathymetry of a patch of the grid hierarchy is set, every cell of its array, ghost cells included, gets the bathymetry of the nearest cell of the domain, whatever the array held before; on copies of patches of other processes this holds for the cells that such copies hold and all other elements stay as they were. So two patches of a level, on whatever processes, agree on every cell they share without exchanging anything, and the bathymetry of a cell that covers four cells of a finer patch is the average of theirs. The program stops only at a cell of the domain without topography. Refuted: ghost cells beyond a periodic boundary do not have the bathymetry of the opposite side.", "quantifier": "every list of topography files, domain, level, patch position and size, number of ghost cells, earlier content, real patch or remote copy, pair of patches", "why_tests_cant": "a mismatch appears only at particular positions relative to domain boundary, neighbours and copies; the combinations of patch position, ghost width, level and process are unbounded", "anchors": ["src/solvers/fc2d_geoclaw/fortran_source/geoclaw_setaux_fort.f90: fc2d_geoclaw_setaux, ghost_invalid", "src/solvers/fc2d_geoclaw/fc2d_geoclaw.cpp: geoclaw_setaux"]}
{"id": "C79", "title": "GeoClaw's initial state is water at rest at sea level plus the average of the perturbation", "statement": "The default initial condition gives every cell of a patch, ghost cells included, water at rest whose surface is at sea level, and no water where the bottom is above sea level, whatever the array held before. In cells that the perturbation file meets, a perturbation of type 1, 2 or 3 adds to depth, x momentum or y momentum the average of the file's data over the part of the cell it covers, provided the bottom is not above sea level, and changes no other component; type 4 sets the surface to that average where it is above the bottom and leaves the cell dry otherwise. Depths are not negative except with type 1. Nothing outside the array is written.", "quantifier": "all patches, bathymetries, sea levels, perturbation files, perturbation types, prior contents of the state and cells", "why_tests_cant": "The average is over an arbitrary overlap of a cell with an arbitrary grid of data; tests try a few alignments of the two grids, and never files that end inside a cell.", "anchors": ["src/solvers/fc2d_geoclaw/fortran_source/geoclaw_qinit_fort.f90: fc2d_geoclaw_qinit", "src/solvers/fc2d_geoclaw/geolib_source/qinit_module.f90: add_perturbation", "src/solvers/fc2d_geoclaw/geolib_source/topointegral.f: topointegral"]}
{"id": "C80", "title": "GeoClaw's boundary conditions extend bathymetry and water together", "statement": "At every side of a patch on the boundary of the domain, ghost cells get the state and the bathymetry of one and the same cell: the last cell of the row at an open side, the mirror image at a wall, where the momentum normal to the wall changes its sign; corners take the image in both directions. Hence water at rest in the patch is at rest with the same surface in all ghost cells. Sides inside of the domain, the cells of the patch and everything outside of the arrays keep their values, applying the conditions again changes nothing, and the run stops exactly when a side on the boundary has no condition (0).", "quantifier": "all patch sizes with at least as many cells as ghost layers, all numbers of equations from three, all choices of conditions at the four sides, all contents of state and bathymetry, all cells and components", "why_tests_cant": "The value of a corner depends on the order in which four loops overwrite each other and on each pair of conditions; tests do not go through all pairs, sizes and data, and a mismatch between depth and bathymetry in a ghost cell shows up only as small spurious waves.", "anchors": ["src/solvers/fc2d_geoclaw/fortran_source/geoclaw_bc2_fort.f: fc2d_geoclaw_bc2", "src/solvers/fc2d_geoclaw/fc2d_geoclaw.cpp: geoclaw_bc2"]}
{"id": "C81", "title": "GeoClaw's limiter compares each wave with its unlimited upwind neighbour", "statement": "The limiter multiplies every nonzero wave at the interfaces 1 to mx+1 by the chosen limiter function (minmod, superbee, van Leer, monotonized centered, Beam-Warming) of the ratio between the projection of the wave on its upwind side and the wave itself, both as they were passed in, although the sweep overwrites the neighbours. Zero waves, families without a limiter and everything else stay as they are. Except for Beam-Warming the factor is zero at extrema, between 0 and 2, at most twice the ratio, 1 for equal waves, and symmetric. Waves that equal their upwind neighbour are not changed, and mirrored data with moving waves give the mirrored result.", "quantifier": "all numbers of equations, families and cells, all waves, speeds and choices of limiters", "why_tests_cant": "The routine updates in place while it reads neighbours, so its result could depend on values already limited for some data only; inequalities on the factor must hold for every ratio.", "anchors": ["src/solvers/fc2d_geoclaw/fortran_source/geoclaw_limiter_fort.f: fc2d_geoclaw_limiter", "src/solvers/fc2d_geoclaw/fortran_source/philim.f: philim", "src/solvers/fc2d_geoclaw/fortran_source/geoclaw_flux2fw_fort.f: fc2d_geoclaw_flux2fw"]}
{"id": "C82", "title": "One step of GeoClaw's solver on a patch", "statement": "One step of the GeoClaw solver on a patch is the update of the two-dimensional wave-propagation method: the fluxes it uses on the two sides of a cell interface differ by exactly the fluctuations that the Riemann solver found there, so corrections of second order, limiters and transverse propagation neither create nor destroy anything; the total of a component over the patch changes only by the fluxes through the patch boundary and by those fluctuations; a patch in which the Riemann solver finds no waves does not change (water at rest stays at rest); ghost cells keep their values; and the Courant number reported is at least dt times the speed over the cell width, for every wave in every row and column the step used; and at a corner where three blocks meet the row or column beside the patch is mirrored at the corner instead of read from ghost cells that do not exist.", "quantifier": "every patch size, number of equations, of waves and of ghost cells, every state and auxiliary data, every Riemann and transverse solver, every choice of order, transverse propagation and limiters, with or without capacity function, with or without corners where three blocks meet", "why_tests_cant": "a test runs a few states with one Riemann solver; conservation and the rest state must hold for every state, and an imbalance of one correction term shows up only as a slow drift", "anchors": ["src/solvers/fc2d_geoclaw/fortran_source/geoclaw_step2_wrap_fort.f: fc2d_geoclaw_step2_wrap", "src/solvers/fc2d_geoclaw/fortran_source/geoclaw_step2_fort.f90: fc2d_geoclaw_step2", "src/solvers/fc2d_geoclaw/fortran_source/geoclaw_flux2fw_fort.f: fc2d_geoclaw_flux2"]}
{"id": "C83", "title": "What GeoClaw records at a gauge", "statement": "The values GeoClaw records at a gauge in a patch are those of the cell that contains the gauge if that cell or one of those to its right, above it or beyond the corner is dry; otherwise they come from bilinear interpolation, which is exact for every field that is linear in each coordinate, and lie between the values of those cells if the gauge is in the upper right quarter of its cell. (In the rest of the cell the code extrapolates: a gauge among cells that are all wet may record a depth below zero.)", "quantifier": "every patch origin and cell size, every position of the gauge in the patch, every state, bathymetry and dry tolerance", "why_tests_cant": "the error depends on where in its cell the gauge is and on the slope of the solution; a run with a smooth solution shows nothing", "anchors": ["src/solvers/fc2d_geoclaw/fortran_source/geoclaw_gauges_fort.f90: fc2d_geoclaw_update_gauge"]}
{"id": "C84", "title": "GeoClaw's transverse Riemann solver", "statement": "GeoClaw's transverse Riemann solver sends nothing across the rows where both cells beside an interface are dry or where the water surface in the receiving cell is below the land on one side of it. Elsewhere it splits the fluctuation into three waves with increasing speeds between the smaller of Roe's speed and that of one cell and the larger of Roe's speed and that of the other; the parts sent down and up add up to the waves times their speeds, so that the mass that crosses is the momentum across in the fluctuation; nothing is sent down if all speeds are positive, nothing up if all are negative; and it is linear in the fluctuation, so that a step with it keeps water at rest. (The mirror image of a state is not split the same way: the two cells are treated differently.)", "quantifier": "every state, bathymetry, fluctuation, direction, gravity, dry tolerance and every rounding of the square root", "why_tests_cant": "wet and dry neighbours, land beside the cell and the signs of three speeds combine to many cases, and a wrong split still runs and looks plausible", "anchors": ["src/solvers/fc2d_geoclaw/riemann_source/rpt2_geoclaw.f: fc2d_geoclaw_rpt2"]}
