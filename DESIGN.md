# Formal model of ForestClaw in Rocq

`/repo` (ForestClaw, pinned commit) is C, C++ and Fortran on top of p4est and
libsc.  Those two are submodules that are empty in the checkout, so everything in
them is *external*.  This directory holds an executable Gallina model of parts of
ForestClaw, separate specifications, and theorems about the model.

Contents: 1 layout and conventions, 2 trusted base, 3 what is modelled and what is
not, 4 contracts of external code, 5 properties and theorems (generated table),
6 claims the code does not satisfy, 7 tests of the theorems against wrong programs.

## 1. Layout and conventions

For each area `X` in `rocq/theories`:

* `Model_X.v` - the model: total functions that follow the C/C++/Fortran text.
  Every definition cites file and lines in `/repo` and says where it simplifies.
* `Spec_X.v` - the vocabulary of the property statements, written without the
  model's helper functions: sets of cells, positions, sums, histories, predicates on
  the observable outcome.
* `Proof_X*.v` - lemmas.
* `Prop_X.v` - the property theorems `Cnn_...`, `Print Assumptions` for each, and
  examples `Cnn_instance` showing that concrete non-trivial cases meet the
  hypotheses.

`properties.jsonl` lists the English properties.  `tools/claims.json` holds status
and notes; `tools/gen.py` derives `rocq/_CoqProject`, `MANIFEST.json` and the table in
section 5 from it.

Modelling conventions

* C `int`, `size_t` and p4est indices are `Z` (or `nat` for list positions).
  Overflow is modelled where a property is about it (C38, C49, C50) and assumed
  absent elsewhere (sizes of arrays, cell counts).
* Cell values, areas and times are exact rationals `Q`.  The statements about them
  are about the algorithm, not about rounding.  Where the code relies on binary64
  being exact on integers (C01-C04, C22, C23, C30, C48) every floating point operation
  of the model goes through a function `rnd`, of which only this is assumed: it
  returns representable values unchanged (`Base_Float.v`; C48 also uses
  monotonicity).  The theorems hold for every such function.  Where data is only moved
  (C16, C17, C25, C33-C35) values are 64 bit patterns or arbitrary values.
* Undefined behaviour, a failed `FCLAW_ASSERT`, `SC_ABORT`, `exit`, `stop`, use of an
  uninitialised value and an index out of bounds are the outcome `None` (or `Stuck`),
  and "defined" is part of the theorems.
* External calls and user callbacks are arguments of the theorems.  What is
  assumed of them is a named predicate in a `Spec_` file and listed in section 4.
* Parallel programs are per-process states with a transition relation, or a list of
  the processes' actions in any order.  Theorems quantify over all schedules.
* A claim the code does not satisfy is stated in full, refuted by a theorem
  `Cnn_..._refuted` with a concrete witness, and proved with the additional hypothesis
  that is missing in the code (section 6).

## 2. Trusted base

* The kernel of Coq 8.16.1, including its virtual machine (`vm_compute` is used in
  some proofs and examples; `native_compute` is not used).
* `Print Assumptions` reports "Closed under the global context" for every theorem listed in
  `MANIFEST.json` except the theorems of C60 (mappings) and C61 (metric terms), which are about real numbers and rest on
  the axioms that Coq's standard library uses for `Reals`, and on no others:
  `ClassicalDedekindReals.sig_forall_dec`, `ClassicalDedekindReals.sig_not_dec`,
  `FunctionalExtensionality.functional_extensionality_dep` and, in the theorems that use
  `asin`, `acos`, derivatives or `Rpower`, `Classical_Prop.classic`.  (`coqchk -o` also reports
  axioms of standard library files that are loaded but not used, such as those of `ssrunder`.)
* Libraries used: Coq's standard library only (`ZArith`, `QArith`, `Reals`, `List`, `Lia`, `Lqa`,
  `Lra`, `Permutation`, `String`, ...).
* No axioms of our own, no `Admitted`, no functors or module types, no kernel check switched off,
  no plugins beyond those of the standard distribution.
* That the model says what the source says.  This is the part that only reading can
  check; the comments with file and line numbers are there for that purpose.
* The contracts of section 4, where a theorem mentions them.
* `tools/gen.py` is used for bookkeeping only and is not part of any proof.

## 3. What is modelled and what is not

| model | source | simplifications |
|---|---|---|
| `Model_Face` | `src/forestclaw2d.c` 543-1383, 2D and 3D (`forestclaw3d.c` includes it) | patches carry level and coordinates only |
| `Model_Mesh` | `src/forestclaw2d.c` neighbor queries and indirect neighbors | assertions on the range of the decoded ghost index in `indirect_end` and `indirect_face_neighbors` left out |
| `Model_Domain` | `src/fclaw2d_convenience.c` `fclaw2d_domain_new`; `src/forestclaw2d.c` level/patch/family iterators | block vertices, `is_boundary`, MPI reduction of levels left out |
| `Model_Iter` | `src/forestclaw2d.c` `iterate_adapted`, `iterate_partitioned`, `assign_for_partition`; `src/fclaw2d_partition.c` callbacks | assertions on ownership of the domain, timers left out |
| `Model_Adapt` | `src/forestclaw2d.c` 1386-1450, `src/fclaw2d_regrid.c` 45-107 and 241-257, `src/fclaw2d_convenience.c` 474-679 | |
| `Model_Advance` | `src/fclaw2d_advance.c` | exact times; solver, ghost update and synchronisation are recorded events |
| `Model_Run` | `src/fclaw2d_run.c` | exact times; the step, regridding and the CFL reduction are functions of the state |
| `Model_Box` | `src/fclaw2d_farraybox.cpp`, `src/patches/clawpatch/fclaw2d_clawpatch.cpp` 166-187, 305-383, 446-471, 1546-1551 | sizes do not overflow; heap without reuse of addresses |
| `Model_Ghost` | `fort_4.6/fclaw2d_clawpatch46_local_ghost_pack.f`, `..._timeinterp.f`, `fclaw2d_clawpatch.cpp` 473-526 and 1015-1225, `fclaw2d_clawpatch_conservation.c` 111-196 | the solver's routine for additional fields is a parameter (`copies_extra`) |
| `Model_Grid` | `fort_4.6/fclaw2d_clawpatch46_copy.f`, `_average.f`, `_interpolate.f` (`interpolate2fine`), `fclaw2d_clawpatch_utils.f`, `fclaw2d_clawpatch_transform.c`, `fclaw2d_clawpatch.cpp` 917-1010 | exact cell values; only index transformations round |
| `Model_Tag` | `fort_4.6/..._tag4refinement.f`, `..._tag4coarsening.f`, `fort_user/` criteria, `fclaw2d_clawpatch.cpp` 799-912 | exact values |
| `Model_Sync` | `clawpack46_time_sync.f`, `clawpack46_step2_wrap.f` 106-125, `fc2d_clawpack46.cpp` 260-400, `fclaw2d_clawpatch_conservation.c`, `src/fclaw2d_time_sync.c` | exact values; the correction of ghost copies in `TIME_SYNC_SAMESIZE` left out |
| `Model_Exchange` | `src/forestclaw2d.c` 1706-1823, `src/fclaw2d_exchange.c` | timers and the indirect exchange inside `exchange_setup` (see `Model_Mesh`) left out |
| `Model_Serial` | `src/forestclaw2d.c` 2398-2427 | |
| `Model_Fill` | `src/fclaw2d_face_neighbors.c`, `src/fclaw2d_corner_neighbors.c`, `src/fclaw2d_ghost_fill.c` | 2D; a run is the list of patch routine calls |
| `Model_FillExec` | the effect of those calls on all processes, by regions of the patch | which regions a Fortran routine or `bc2` reads and writes is stated there; `timeinterp2fillghost` set |
| `Model_Regrid` | `src/fclaw2d_patch.c` 62-214, 627-668, 707-731, 975-1040; `src/fclaw2d_regrid.c` 114-400; `src/fclaw2d_partition.c` 55-189; `src/fclaw2d_domain.c` 163-260; `src/fclaw2d_exchange.c` 79-287; `src/fclaw2d_initialize.c` 53-232; `src/fclaw2d_finalize.c` | one value per patch; numerical routines are parameters; user hooks, send buffers, neighbor types left out; received buffers are inputs |
| `Model_Search` | `src/fclaw2d_convenience.c` 932-1282, 2D and 3D | finite coordinates; sums of integrals exact |
| `Model_Gauge` | `src/fclaw_gauges.c`, `fc2d_geoclaw_gauges_default.c` | collective calls separated by a reduction; a file is a list of samples |
| `Model_Brick` | `src/fclaw2d_map_brick.c`, `src/fclaw2d_map.c` 123-142, `mappings/fclaw2d_map_nomap_brick.c` | third coordinate (0) and `brick.dat` left out |
| `Model_File`, `Model_FileError` | `src/fclaw2d_file.c` (legacy functions, used by `fclaw2d_file_open_write`), `src/fclaw2d_file.h` 52-80 | readers are inside `#if 0` and not modelled; outcome of each I/O call is an input |
| `Model_Packing` | `src/fclaw_packing.c`, `src/fclaw_options.c` 412-548, `fclaw2d_clawpatch_options.c` 165-222, `fc2d_clawpack46_options.c` 105-213, `src/fclaw2d_global.c` 132-222 | little endian, 32 bit int, struct padding zero |
| `Model_Options` | `src/fclaw_options.c` 353-413 and 691-739, `src/fclaw_base.c` 493-531 and 758-895, `fclaw2d_clawpatch_options.c` 121-165, `fc2d_clawpack46_options.c` 76-103 | exact reals; decimal `strtod` only; results of loading, parsing, saving are inputs |
| `Model_Util` | `src/fclaw_pointer_map.c`, `src/fclaw_timer.c` 67-108, `src/fclaw_math.c` 34-52 | exact clock readings |
| `Model_Overlap` | `src/fclaw2d_convenience.c` 1285-1992 (`fclaw2d_overlap_exchange`) | a query point is one value; freeing of buffers reduced to its assertions; any message order between processes |
| `Model_Corner` | `fclaw2d_clawpatch46_interpolate.f` 30-314, `fclaw2d_clawpatch46_copy.f` 95-133, `fclaw2d_clawpatch46_average.f` 186-272, `fclaw2d_clawpatch_utils.f` 76-117 and 214-225, `fclaw2d_clawpatch_transform.c` 128-193 | as `Model_Grid`; one read without effect left out |
| `Model_Bc` | `src/fclaw2d_physical_bc.c`, `fc2d_clawpack46.cpp` 94-146, `clawpack46_bc2_default.f` | exact cell values; `stop` and out of bounds are failure |
| `Model_Diag` | `src/fclaw2d_diagnostics.c` 118-212, `fclaw2d_clawpatch_diagnostics.c`, `fclaw2d_clawpatch_diagnostics_default.c`, `fclaw2d_clawpatch46_diagnostics.f` | exact arithmetic; square of the 2-norm; user's error routine arbitrary |
| `Model_Step` | `fc2d_clawpack46.cpp` 307-384, `clawpack46_step2_wrap.f`, `clawpack46_step2.f`, `clawpack46_flux2.f`, `clawpack46_flux2fw.f`, `clawpack46_inlinelimiter.f`, `clawpack46_limiter.f` | numbers are rationals with arbitrary operations; Riemann solvers are functions of the states and auxiliary values at an interface |
| `Model_Solve` | `src/patches/clawpatch/fclaw2d_clawpatch.cpp` 530-804 (which arrays a ghost-filling call uses), `src/fclaw2d_exchange.c` 303-413, `src/fclaw2d_ghost_fill.c` 466-860, `src/fclaw2d_update_single_step.c`, `src/fclaw2d_initialize.c` 140-145, on top of `Model_Fill`, `Model_Grid`, `Model_Corner`, `Model_Bc`, `Model_Ghost`, `Model_Step`, `Model_Advance` | all messages arrive; a routine called with the same array twice sees the values before the call; no b4step2 and src2; no time interpolation |
| `Model_Vtk` | `src/patches/clawpatch/fclaw2d_clawpatch_output_vtk.c` (2D and, through `fclaw3dx_clawpatch_output_vtk.c`, 3D) | the header as tags and attributes, any text for it; calls of MPI I/O write all their bytes or abort; writes of different processes are interleaved in any way; little-endian integers; bytes of doubles and floats arbitrary; failure is discarded by `fclaw2d_clawpatch_output_vtk` (its cast to void) |
| `Model_Map` | `src/mappings/*/mapc2m_*.f`, `src/mappings/scale_rot_map.f` `set_rotation_matrix`, `src/fclaw2d_map.c` 498-561 | exact real numbers; the common block `/compi/` holds pi and 2 pi; the connectivities (`tree_to_vertex` of p4est) are in `Spec_Map` |
| `Model_Metric` | `src/patches/metric/fortran_source2d/fclaw2d_metric_default_fort.f90` (except the unused versions 1 and 3 of `get_normal`), `src/patches/metric/fclaw2d_metric_default.c` 33-164, `src/patches/metric/fclaw2d_metric.cpp` 120-423, `src/fclaw_math.c` 34-52 | exact real numbers; a value that is not a number is `None`; x, y, z arrays are one array of points; reading an element never assigned and indices out of bounds are failure |
| `Model_Pillow` | `fclaw2d_clawpatch_pillow.c` 72-201, `fort_4.6/fclaw2d_clawpatch46_pillowsphere.f` | as `Model_Grid` |
| `Model_Extruded` | `fort3_4.6/fclaw3dx_clawpatch46_copy.f90`, `_average.f90`, `_interpolate.f90`, `_diagnostics.f90`; `fclaw2d_clawpatch.cpp` and `fclaw2d_clawpatch_diagnostics.c` with `PATCH_DIM` 3 | as `Model_Grid`; the index transformations are those of the 2D patches, as in the code |
| `Model_ExtrudedTag` | `fort3_4.6/fclaw3dx_clawpatch46_tag4refinement.f90`, `_tag4coarsening.f90`, `fort3_user/` | as `Model_Tag`; no user-supplied criterion |
| `Model_Geoclaw` | `src/solvers/fc2d_geoclaw/fclaw2d_source/fc2d_geoclaw_average_fort.f`, `fc2d_geoclaw_interpolate_fort.f` | as `Model_Grid`; divisions by zero are failure; of the nine surface heights only the five used are read |
| `Model_Elliptic` | `src/solvers/fc2d_thunderegg/operators/fc2d_thunderegg_fivepoint.cpp`, `_varpoisson.cpp`, `_heat.cpp`, `fort_4.6/thunderegg_apply_bc_default.f90`, `fc2d_thunderegg_vector.cpp` | as `Model_Grid`; ThunderEgg (solvers, multigrid, ghost fillers) is external; its views and PatchInfo appear by contract |
| `Model_Step5` | `src/solvers/fc2d_clawpack5/fortran_source/clawpack5_step2.f90`, `_step2_wrap.f`, `_flux2.f`, `_inlinelimiter.f`, `_set_amr_module.f90`; `fc2d_clawpack5.cpp` (step2), `fc2d_clawpack5_options.c` (check) | as `Model_Step`; the Fortran module is a value that the options overwrite; the order of the array indices plays no role |
| `Model_Patch5` | `src/patches/clawpatch/fort_5.0/fclaw2d_clawpatch5_interpolate.f` (face, corner, new fine patch), `_timeinterp.f`, `_local_ghost_pack.f`, `_tag4refinement.f`; `fclaw2d_clawpatch.cpp` where they are called | as the 4.6 models; a scalar passed for an array has only its first element; routines that differ from 4.6 in the order of indices alone are not repeated |
| `Model_Ascii` | `src/patches/clawpatch/fclaw2d_clawpatch_output_ascii.c`, `fort_4.6/fclaw2d_clawpatch46_output_ascii.f` (`fort_5.0` alike), `src/solvers/fc2d_geoclaw/fc2d_geoclaw_output_ascii.c`, `fc2d_geoclaw_output_ascii_fort.f`, `src/fclaw2d_patch.c` 823-843, with `Model_Serial` | a line holds a real number and its edit descriptor, not its digits; integers not negative; every line is a separate write of its process; opening and writing succeed |
| `Model_GeoTag` | `fc2d_geoclaw.cpp` 398-498; `fc2d_geoclaw_test_regions.f90`; `fc2d_geoclaw_flag2refine_fort.f90`; `fc2d_geoclaw_tag4refinement_fort.f90`; `fc2d_geoclaw_tag4coarsening_fort.f90` 1-124; the level tests of `fclaw2d_regrid.c` 45-107 | exact arithmetic; no square root; `allowflag` any predicate |
| `Model_Init` | `src/fclaw2d_initialize.c` 129-131, 160-226; `src/fclaw2d_regrid.c` 45-107, 114-220 with `domain_init` | quadtrees of patches; criteria and initial data are arbitrary functions; adaptation by p4est is a contract |
| `Model_Geom` | `fclaw2d_clawpatch.cpp` 193-289 (2D, coordinates and cell widths) with `Model_Domain.set_boundary_xylower` and `Model_Brick` | allocation, solver aux pointers and the z direction are left out |
| `Model_Tikz` | `fclaw2d_output_tikz.c` 54-243 (rectangles, text of a patch, buffering and schedule) | preamble and figure size are left out; runs begin after the header; the order of sections is C29 |
| `Model_GeoSrc` | `fc2d_geoclaw`: `geoclaw_b4step2_fort.f90`, `geoclaw_src2_fort.f90` completely (without check4nans), `coriolis` and `spherical_distance` of `geoclaw_module.f90`, the decision part of `topo_update.f90`, their order in `geoclaw_update` | exact reals; the bed is the time it was computed for; storm functions arbitrary; FORALL as a loop with the mask of the entry |
| `Model_Timer` | Timers: start, stop and report (fclaw_timer.c), and every timer call of the core library with the control flow around it (initialise, run, regrid, partition, exchange, ghost filling, advance, time sync, diagnostics, output, elliptic solve, finalise) | Times are exact rationals; conditions on options, grids and values are nondeterministic choices; user call-backs make no timer calls; the report is one process's contribution, without statistics or printing; CUDA solvers left out |
| `Model_GeoRun` | GeoClaw's time loops (`fc2d_geoclaw_run.c`): steps over a moving bed, output styles 1 and 3 | exact times; solver, regridding, reduction external as in `Model_Run`; interval of motion and `dt_max_dtopo` are parameters; `curr_dt`, messages, timers left out; output style 4 is that of `Model_Run` |
| `Model_Bc3` | `fc3d_clawpack46_bc3_default.f90` completely, `clawpack46_bc3` in `fc3d_clawpack46.cpp` 97-151 | exact values, unassigned elements are copied as such; index errors and `stop` are failures |
| `Model_Topo` | GeoClaw's `cellgridintegrate`, `topointegral`, `bilinearintegral`, `intersection`, `rectintegral`, `topoarea`, the coverage check of `read_topo_settings` and the division of `geoclaw_setaux_fort.f90` 194-206 | exact rationals, Cartesian coordinates only (the spherical `bilinearintegral_s` is left out), files in the order `mtopoorder` with arrays of their own, reading of the files not modelled |
| `Model_SetAux` | `fc2d_geoclaw_setaux` and `ghost_invalid` (`geoclaw_setaux_fort.f90`) with the call in `fc2d_geoclaw.cpp` 178-206, for aux(1) | exact rationals, Cartesian coordinates, topography from files; friction, storm and capacity fields left out; loops over rows and columns as one loop over positions |
| `Model_Qinit` | GeoClaw's default initial condition: flat state and `add_perturbation` for types 1 to 4 | Exact rational numbers; Cartesian coordinates; loops over cells are a map over the array; `meqn` at least the type |
| `Model_GeoBc` | `fc2d_geoclaw_bc2` and `geoclaw_bc2`: state and bathymetry of ghost cells at the boundary of the domain | Exact rational numbers; q and aux(1) in one array; the routine as the list of its assignments in the order of the loops |
| `Model_GeoLimiter` | `fc2d_geoclaw_limiter` with its in-place sweep, and `philim` | Exact rational numbers; arrays are functions of their indices |
| `Model_GeoStep` | One step of GeoClaw's solver on a patch: `geoclaw_step2_wrap_fort.f`, `geoclaw_step2_fort.f90`, `geoclaw_flux2fw_fort.f` | exact rationals; arrays are functions of indices; Riemann solvers are arbitrary functions; Cartesian coordinates; `relimit` is false, as in the code; source terms are left out |
| `Model_GeoGauge` | Values recorded at a gauge: `geoclaw_gauges_fort.f90` completely | exact rationals; arrays are functions of indices |
| `Model_GeoRpt` | GeoClaw's transverse Riemann solver: `rpt2_geoclaw.f` | Cartesian coordinates; rationals, with an arbitrary function for the square root; arrays are functions of indices |
<!-- more models -->

Not modelled at all: particular Riemann solvers (arbitrary functions in C24, C57 and C66); clawpack 5.x (except the step and the patch routines), GeoClaw (except
gauges, tagging, text output, dry cells, moving bed, source terms, time loops, topography, bathymetry of patches, the initial state, boundary conditions, the wave limiter, one step of the solver, values at gauges, the transverse Riemann solver and the passage between grid levels), cudaclaw, ThunderEgg itself and the solve drivers; 3D metric terms; graphics and file
output other than `fclaw2d_file.c`, VTK and 2D text frames (ascii output of extruded patches, HDF5); regression tests and applications; of the extruded patches everything but the routines above
(ghost packing, time interpolation, solvers, output other than VTK); statistics of the timers over processes; logging.  p4est and libsc are external throughout.

## 4. Contracts of external code

Each is a hypothesis or definition visible in the theorem that uses it.

* p4est partition: new owner intervals; `p4est_wrap_partition` returns the window of
  patches that stay (C09, C45, C52); packed bytes arrive unchanged.
* p4est mesh and ghost arrays encode the neighbor relation of a global forest as
  documented (`Spec_Mesh.represents`; C05, C28).
* p4est adaptation: 2:1 balance, mark semantics (`wrap_adapt_contract`, C11);
  each new leaf list is a keep/refine/coarsen outcome of the old one
  (`adaptation`, C08, C45, C52).
* p4est ghost exchange (`p4est_ghost_exchange_custom`): mirror data is copied at
  begin, ghost memory written at end, k-th exchange meets k-th exchange (C27, C28).
* p4est forests are fully balanced and ghost layers complete
  (`Spec_Fill.forest_ok`, `ghosts_ok`; C46, C47).
* `p4est_search_local` visits a tree of quadrants that contain the local leaves below
  them, in any order (`Spec_Search.search_tree_of`; C30, C31, C32).
* `p4est_search_partition_gfx` visits a tree of quadrants whose leaves have one owner each, owners
  ascending, and cover the local leaves of their owners (`Spec_Overlap.partition_ok`; C32);
  `sc_notify_ext` returns the processes that listed the caller, in any order, after all have called it.
* The interpolation callback follows its documentation (`Spec_Overlap.usable`; C32).
* `p4est_expand_face_transform` (C01-C03), `p4est_quadrant_child_id`,
  `p4est_quadrant_is_familyv`, brick connectivity vertices (C48): documented
  behaviour.  `p4est_connectivity_deflate` gives an even number of bytes (C41).
* libsc: `sc_keyvalue`, `sc_hash`, `sc_options` as finite maps.
* MPI: point-to-point messages between two processes are not lost and not
  reordered (C29); collective reductions combine all values; errors of collective I/O
  calls are reported to all processes (C43); writing at an offset changes exactly these
  bytes, opening for creation truncates (C41, C42).
* Collective gauge calls are separated by global reductions (C39).
* Riemann solver: the fluctuations split the flux difference (C24).
* User tagging criterion depends only on what it is shown (C26); user functions
  asked for ray integrals are consistent with nesting (C31).
* `normalize_coordinates` of GeoClaw's virtual table and mapping functions are
  parameters.

## 5. Properties and theorems

Generated by `tools/gen.py`.  How a property is proved: the theorem is an
induction over the input (list of leaves, history, schedule, loop counter) or an
invariant of a transition system, in the `Proof_` files of the same area; no theorem
is limited to bounded sizes.

<!-- table -->
| id | property | status | where | theorems | scope and method |
|---|---|---|---|---|---|
| C01 | Swapping a face connection twice gives the connection back | proved | `Prop_Face` | `C01_face_swap_exchanges_sides` `C01_face_swap_involutive` `C01_face_swap_describes_inverse` | face_swap in 2D and 3D for every face pair and orientation; the 2D link to the inverse transformation uses the documented behaviour of the external p4est_expand_face_transform |
| C02 | Same-size face transformation is the exact geometric identification of cells | proved | `Prop_Face` | `C02_transform_face_across_blocks` `C02_same_position_is_unique` `C02_transform_face_inverse` `C02_transform_face_same_block` `C02_ghost_layers_map_to_interior_layers` | 2D and 3D, all levels, positions, axis permutations, reversals, face codes, both bases; binary64 exactness is derived from the rounding function being exact on representable values, for 2^level*m <= 2^49 |
| C03 | Half-size face transformation returns exactly the fine cells covering the coarse cell | proved | `Prop_Face` | `C03_transform_face2_across_blocks` `C03_transform_face2_same_block` | 2D and 3D; every output slot is written once and holds the fine cell centered on the corresponding child of the coarse cell |
| C04 | Corner transformations identify the right cells | proved | `Prop_Face` | `C04_transform_corner` `C04_transform_corner2` `C04_corner_swap` | transform_corner and transform_corner2, inside a block and between equally oriented blocks |
| C05 | Face neighbor query decodes the mesh faithfully | proved | `Prop_Mesh` | `C05_face_neighbors` `C05_answer_determines` `C05_normal_match` `C05_boundary_type` `C05_corner_neighbors` | Against a global forest and the documented p4est mesh encoding (Spec_Mesh.represents), 2D and 3D. |
| C06 | Level iteration visits each local patch of the level exactly once | proved | `Prop_Domain` | `C06_iterate_level` `C06_iterate_patches` `C06_all_levels` | Level, patch and all-level iteration over every domain built by the modelled fclaw2d_domain_new, 2D and 3D. |
| C07 | Family iteration visits exactly the complete local families | proved | `Prop_Domain` | `C07_iterate_families` `C07_families_disjoint` | Family iteration over every constructed domain reports exactly the complete families; families are disjoint. |
| C08 | Adapted-domain iteration pairs each old patch with its successors | proved | `Prop_Iter` | `C08_iterate_adapted` `C08_every_old_leaf_in_one_call` `C08_every_new_leaf_in_one_call` | iterate_adapted for every sequence of keep/refine/coarsen outcomes per block. |
| C09 | Partition transfer moves each patch exactly once | proved | `Prop_Iter` | `C09_iterate_partitioned` `C09_partition_transfer` `C09_local_numbering` | iterate_partitioned and the transfer callback for all old/new ownership intervals; the window returned by p4est_wrap_partition and the byte transfer of packed patches are external and assumed by their contract. |
| C10 | Refinement marks never leave the admissible level range | proved | `Prop_Adapt` | `C10_marks_defined` `C10_marks` `C10_bounds` `C10_regrid_exact` `C10_regrid_range` | Any program of marks from an unmarked domain: requested level and flag of every patch given exactly; bounds [0, P4EST_QMAXLEVEL]; regridding tags exact for arbitrary answers of the user tag functions, and requests stay in [minlevel, maxlevel]. |
| C11 | Smooth refinement adds a one-ring of refinement and never cancels a refine mark | proved | `Prop_Adapt` | `C11_flags` `C11_code_order` `C11_order_independent` `C11_adapt` `C11_refine_kept` `C11_range` `C11_off` `C11_withdrawn` | All forests, neighbor relations and visiting orders under stated mesh facts (2:1 balance, ghosts mirror owners) and delivery of ghost target levels; effect on the mesh through a stated contract of p4est_wrap_adapt. |
| C12 | Subcycling takes exactly 2^(level-minlevel) steps per level and lands on t+dt | proved | `Prop_Advance` | `C12_call_completes` `C12_subcycled_steps` `C12_not_subcycled_steps` `C12_coarse_level_brackets_step` `C12_returned_cfl` | exact rational times; subcycled and not; any level range, any process-local minimum level |
| C13 | Time interpolation always uses the half-way point | proved | `Prop_Advance` | `C13_alpha_is_half` `C13_ghost_update_synchronised` `C13_final_ghost_update` | exact rational times; also that every intermediate ghost exchange is synchronised |
| C14 | Time loop (outstyle 1) reaches every output time exactly and never passes it | proved | `Prop_Run` | `C14_output_times` `C14_never_past_output_time` `C14_history` `C14_terminates` `C14_fixed_step_refuted` | exact rational times, variable step; any CFL history; termination for CFL numbers bounded by a multiple of the step; with a fixed step output times are overshot (C14_fixed_step_refuted) |
| C15 | Step-count output styles take exactly the requested number of steps | proved | `Prop_Run` | `C15_outstyle_3` `C15_outstyle_4` `C15_initial_frame` `C15_zero_interval_refuted` | styles 3 and 4; nstep = 0 divides by zero in the code (C15_zero_interval_refuted) |
| C16 | A rejected step restores the solution exactly | proved | `Prop_Box` | `C16_restore_gives_saved` `C16_saved_copy_untouched` `C16_save_restore_defined` `C16_boxes_are_values` `C16_no_sharing_no_leak` `C16_copy_constructor_refuted` `C16_debug_self_assignment_refuted` | Array boxes refine independent values; save/restore exact for every history; copy constructor and debug self-assignment refuted as side findings. |
| C17 | Parallel ghost packing transfers every cell a neighbor needs | proved | `Prop_Ghost` | `C17_pack_size` `C17_roundtrip` `C17_strips` `C17_small_patch_refuted` | All sizes with 2*refratio*mbc <= mx, my; the smaller patches accepted by the option check are refuted by C17_small_patch_refuted. The solver's routine for extra fields is assumed to copy them. |
| C18 | Time-interpolated coarse data covers every cell used for ghost filling | proved | `Prop_Ghost` | `C18_timeinterp` `C18_ghosts_kept` `C18_linear_exact` `C18_between` | Exact arithmetic. |
| C19 | Averaging four siblings onto the parent is complete and conservative | proved | `Prop_Grid` | `C19_covered_once` `C19_average2coarse` `C19_mass` `C19_odd_size_refuted` `C19_not_square_refuted` | For even mx = my; each cell covered once, value is the (area weighted) mean, other cells untouched, mass equal. Odd sizes (accepted by the option check) and mx <> my are refuted by example. |
| C20 | Refining a patch is conservative, bounded and undone by coarsening | proved | `Prop_Grid` | `C20_interpolate2fine` `C20_roundtrip` `C20_constant` `C20_one_ghost_layer_refuted` `C20_mapped_range_refuted` | For even sizes and mbc >= 2. Values in exact arithmetic. mbc = 1 writes out of bounds (refuted); range property does not hold on mapped grids in general (refuted), constants are preserved when areas add up. |
| C21 | The slope limiter creates no new extrema and is exact for linear data | proved | `Prop_Grid` | `C21_extremum` `C21_increasing` `C21_decreasing` `C21_bounded` `C21_symmetric` `C21_linear` | Limiter mth = 5 as used by the interpolation routines, exact arithmetic. |
| C22 | Ghost cells across a face are filled completely with the neighbor's cells | proved | `Prop_Grid` | `C22_copy_face` | Same-size neighbor in the same block or across a block boundary with any orientation; index transformation with rounding. |
| C23 | Coarse ghost cells at a refinement boundary are filled exactly once by the two fine neighbors | proved | `Prop_Grid` | `C23_average_face` `C23_every_ghost_cell_once` `C23_both_neighbors` `C23_odd_size_refuted` | Even mx = my, any rounding of the index transformation; odd sizes refuted by example. |
| C24 | Flux correction makes the scheme conservative across refinement boundaries | proved | `Prop_Sync` | `C24_new` `C24_step` `C24_runs` `C24_cells` `C24_balance` `C24_history` `C24_conserved` `C24_one_ghost_layer_refuted` | step, correction of every cell, balance of a synchronisation on any distribution of the patches, and conservation over any history; refuted for one ghost layer |
| C25 | Conservation registers survive packing and are cleared once per synchronisation | proved | `Prop_Ghost` `Prop_Sync` | `C25_pack_registers` `C25_reset` `C25_complete` | pack/unpack of the registers, and which registers a synchronisation clears |
| C26 | Tagging is decided by the criterion on the cells of the patch | proved | `Prop_Tag` | `C26_refine_iff` `C26_coarsen_iff` `C26_never_coarsen_initially` `C26_never_coarsen_threshold` `C26_always_refine` `C26_builtin_usable` `C26_refine_builtin` `C26_coarsen_builtin` `C26_no_conflict` `C26_threshold_variable_refuted` | For any user test that depends only on what it is shown (usable): tag = 1 iff the test holds at some visited cell, where shows says what is passed, including running min/max over everything seen. For the four built-in criteria this is reduced to statements on the data; coarsening never happens during initialisation or with a non-positive threshold; no family tagged for coarsening contains a patch tagged for refinement if coarsen_threshold <= refine_threshold. Refuted: threshold_variable > meqn is not rejected and reads out of bounds. Exact rational arithmetic. |
| C27 | Ghost exchange protocol | proved | `Prop_Exchange` | `C27_delivery` `C27_progress` `C27_released` `C27_out_of_order` `C27_untouched` `C27_below_range_overwritten` `C27_delete_inside_accepted` | Interleaving model of the exchange calls of all processes with a heap; p4est ghost exchange as contract (mirror data copied at begin, ghost memory written at end). C27_below_range_overwritten and C27_delete_inside_accepted show behaviour outside the claim. |
| C28 | Indirect neighbor information agrees with the owner's | proved | `Prop_Mesh` | `C28_indirect` `C28_deliverable` | indirect_begin on all processes, exchange contract (delivered), indirect_end and the two queries; the p4est exchange and sc_hash are contracts. |
| C29 | Serialized sections run in rank order, one at a time | proved | `Prop_Serial` | `C29_exclusion` `C29_order` `C29_progress` `C29_terminates` `C29_repeated_refuted` | transition system of the message passing; exclusion, rank order, progress, termination; overlap of repeated sections refuted |
| C30 | Every searched point is assigned to exactly one patch | proved | `Prop_Search` | `C30_search_points` `C30_exactly_once` | p4est_search_local as contract: any search tree whose branches contain the local leaves below them, in any order. Finite coordinates; comparisons with exact powers of two under any rounding exact on representable numbers. |
| C31 | Ray integrals are the sum over all intersected leaves | proved | `Prop_Search` | `C31_integrals` `C31_partition_independent` | Exact (rational) sums; callback consistent with nesting (a quadrant around a contributing leaf is reported as intersected); p4est_search_local as contract as for C30. |
| C32 | Overlap exchange answers every query point | proved | `Prop_Overlap` | `C32_answers` `C32_no_deadlock` `C32_terminates` `C32_serial` `C32_several_processes_refuted` | For every interleaving: answers, freedom from deadlock (also with rendezvous sends), termination, no failed assertion, and the build without MPI. Contributions of several processes: refuted, only the lowest contributing process answers. |
| C33 | Packed values are read back unchanged | proved | `Prop_Packing` | `C33_scalars_read_back` `C33_strings_read_back` `C33_null_string_read_back` | Scalars, strings and NULL strings read back from the byte buffer, using exactly the announced bytes. |
| C34 | Packed options are read back unchanged on another process | proved | `Prop_Packing` | `C34_options_read_back` `C34_clawpatch_options_read_back` `C34_clawpack46_options_read_back` `C34_regression_check_refuted` | Three option packages read back; the original claim including regression_check is refuted (C34_regression_check_refuted) and the property statement says so. |
| C35 | Packed global state is read back unchanged | proved | `Prop_Packing` | `C35_global_read_back` `C35_unregistered_aborts` | Global state with every registered option package reads back; an unregistered package aborts. |
| C36 | Pointer map: last insertion wins and every value is destroyed exactly once | proved | `Prop_Util` | `C36_last_insertion_wins` `C36_destroyed_when_replaced` `C36_each_destroyed_once` `C36_iterate_and_size` | For every history and every visiting order of the table. |
| C37 | Timers accumulate exactly the started-stopped intervals | proved | `Prop_Util` | `C37_cumulative` `C37_aborts_unless_alternating` `C37_misuse_aborts` | Exact rational clock readings. |
| C38 | Integer power | proved | `Prop_Util` | `C38_exact_result` `C38_zero_exponent` `C38_powers_of_two` `C38_no_overflow_refuted` `C38_wrapping_arithmetic` | Exact characterisation of when the loop overflows; original claim refuted (C38_no_overflow_refuted); wrap-around variant proved. |
| C39 | Gauge samples are neither lost, duplicated nor reordered | proved | `Prop_Gauge` | `C39_samples` `C39_times` `C39_spacing` `C39_zero_buffer_refuted` | C39_samples: for any number of processes, buffer length >= 1, order of execution within each collective call and any migration, each gauge file receives exactly one line per sampling time in call order; C39_times/C39_spacing: sampling times are a function of the update times only, within [t1,t2] and spaced; collective calls are separated by global reductions (model assumption). C39_zero_buffer_refuted: gauge_buffer_length = 0 is accepted by the options and overflows the buffer. |
| C40 | Every gauge in the domain gets exactly one location slot | proved | `Prop_Gauge` | `C40_slots` `C40_brick` `C40_shared_edge_refuted` `C40_no_brick_refuted` `C40_outside_refuted` | C40_slots: slots, offsets and coordinates are right if every gauge lies in exactly one block; C40_brick: this is so for gauges off the inner edges of a brick. Refuted otherwise: C40_shared_edge_refuted (gauge on an edge between blocks overflows the coordinate array), C40_no_brick_refuted (several blocks without brick), C40_outside_refuted. |
| C41 | File sections are disjoint, aligned and self-describing | proved | `Prop_File` | `C41_layout` `C41_read_back` `C41_refused` `C41_padding_refuted` `C41_open_write` | Layout and round trip for all sequences of calls whose sizes are not 15 modulo 16 (C41_padding_refuted shows the failure there). The reading functions of the source are disabled by #if 0; the reader is part of the specification. |
| C42 | Files do not depend on the partition | proved | `Prop_File` | `C42_partition_independent` `C42_own_range` `C42_ranges_tile` | For every partition, order of the processes and I/O mode the bytes are the same; ranges of the processes tile the data. |
| C43 | Error codes are complete | proved | `Prop_FileError` | `C43_codes` `C43_io_refuted` `C43_public_message_refuted` `C43_public_message` `C43_block_agrees` `C43_field_agrees` `C43_field_short` `C43_create_agrees` `C43_input_agrees` `C43_open_write_agrees` `C43_close_agrees` `C43_short_header_refuted` `C43_late_error_refuted` `C43_count_per_tree_refuted` `C43_short_file_header_refuted` `C43_short_data_refuted` | Agreement of all processes for errors of collective calls and section headers; codes and messages per class. Refuted parts: other I/O class, public messages, short writes, errors after the header, error path of the count-per-tree block, short file header. |
| C44 | Domain construction assigns consistent patch geometry and flags | proved | `Prop_Domain` | `C44_domain_new_represents_forest` `C44_ghost_patches` `C44_positions_complete` | fclaw2d_domain_new: geometry, levels, child numbers, sibling/boundary/mirror flags, level chains, exchange list, ghosts. Block vertices, is_boundary and the MPI reduction of levels not modelled. |
| C45 | Patch bookkeeping balances | proved | `Prop_Regrid` | `C45_whole_run` `C45_reachable` `C45_patch_number_refuted` | For all histories p4est may produce (legal). The recorded patch number goes stale: refuted with a witness. |
| C46 | A ghost update leaves every ghost region with contents made from the current solution | proved | `Prop_Fill` `Prop_FillInst` | `C46_ghost_update` `C46_values_current` `C46_values_exist` `C46_deterministic` `C46_stale_copy_refuted` | C46_ghost_update: the whole update on all processes, symbolic contents by region. C46_values_exist/_values_current: which regions are covered and that contents are current. C46_deterministic: overlap, old contents and buffers do not matter. C46_stale_copy_refuted: before the exchange stale remote copies are read. Region footprints of the Fortran routines are stated in Model_FillExec.v; forest balance and completeness of the ghost layer are hypotheses (p4est). |
| C47 | Corner neighbor callbacks receive the right block numbers | proved | `Prop_Fill` `Prop_FillInst` | `C47_corner_blocks` `C47_remote_coarse_refuted` | C47_corner_blocks; the exception is real: C47_remote_coarse_refuted. |
| C48 | Brick coordinates tile the unit square | proved | `Prop_Brick` | `C48_tiling` `C48_rounded` `C48_single_tree_refuted` | C48_tiling in exact arithmetic, C48_rounded for any monotone rounding exact on representable numbers; C48_single_tree_refuted: without a brick the assertion compares a pointer with 0 and always fails. |
| C49 | Option arrays are parsed to the requested length | proved | `Prop_Options` | `C49_int_array` `C49_int_length` `C49_double_array` `C49_double_length` `C49_int_range_refuted` `C49_solver_arrays` | strtol modelled exactly (base 10, saturation, low 32 bits); strtod for decimal numbers as exact rationals, hexadecimal, inf and nan not modelled; C49_int_range_refuted: numbers outside int are silently changed |
| C50 | Option checking rejects exactly the inconsistent settings | proved | `Prop_Options` | `C50_options_check` `C50_options_check_3d` `C50_exact_division_refuted` `C50_clawpatch_check` `C50_usable_accepted` `C50_unusable_refuted` | exact rational arithmetic; undefined conversions are None; C50_exact_division_refuted and C50_unusable_refuted show what the checks let through |
| C51 | Option parsing reports the most severe outcome, alike on all processes | proved | `Prop_Options` | `C51_status` `C51_processes_agree` `C51_save_failure_refuted` `C51_requests` | status of loading, parsing and saving are inputs; C51_save_failure_refuted: the root alone stops when saving fails |
| C52 | Regridding and repartitioning carry every patch's data | proved | `Prop_Regrid` | `C52_regrid` `C52_initial` `C52_partition` `C52_conserves` | Numerical interpolation and averaging are parameters (their own properties are C19-C23); the buffers received are an input. |
| C53 | Interpolation to the ghost cells of a finer neighbor | proved | `Prop_Corner` | `C53_interpolate_face` `C53_filled` `C53_range` `C53_mean` `C53_affine` `C53_not_square_refuted` | square patches; for mx different from my the inner loop along x-faces has the wrong bound (C53_not_square_refuted) |
| C54 | Corner ghost regions | proved | `Prop_Corner` | `C54_copy_corner` `C54_average_corner` `C54_interpolate_corner` `C54_deep_block_corner_refuted` | square patches; where four blocks meet, interpolation needs 2^level*m <= 2^29 (C54_deep_block_corner_refuted) |
| C55 | Physical boundary conditions | proved | `Prop_Bc` | `C55_values` `C55_unchanged` `C55_wall` `C55_again` `C55_level` `C55_scalar_wall_refuted` | default boundary routine of clawpack 4.6; a wall with too few equations is C55_scalar_wall_refuted |
| C56 | Error norms and conservation check | proved | `Prop_Diag` | `C56_history` `C56_partition` | exact arithmetic; the 2-norm before the square root; the user's error routine is an arbitrary function |
| C57 | One step of the wave propagation solver on a patch | proved | `Prop_Step` | `C57_values` `C57_one_grid` `C57_conservative` `C57_quiet` `C57_limiter` `C57_work` `C57_fwaves` `C57_fwaves_refuted` `C57_one_ghost_layer_refuted` `C57_order_refuted` | values with any arithmetic and any Riemann solver functions; conservation, constants, limiters and f-waves in exact arithmetic; f-waves with a capacity function, one ghost layer with a limiter and order 3 2 refuted |
| C58 | A run on a uniform mesh is the method on one grid | proved | `Prop_Solve` `Prop_SolveInst` | `C58_one_grid` `C58_ghosts_given` `C58_ghost_cells` `C58_same_results` `C58_conserved` `C58_ghosts_not_filled_refuted` | uniform meshes, clawpack 4.6 in 2D, no source terms, no metric changes; any arithmetic (conservation: exact); composition of the models of C17-C25, C28, C36, C53-C55, C57; run without ghost filling after initialization refuted |
| C59 | The VTK file holds the forest and its solution, whatever the number of processes | proved | `Prop_Vtk` | `C59_return` `C59_file` `C59_partition` `C59_solution` `C59_several_processes_refuted` `C59_separation_refuted` `C59_large_patches_refuted` `C59_instance` `C59_partition_instance` | C59_file, C59_partition, C59_solution, C59_return for parallel output or one process. Refuted: several processes without MPI I/O (C59_several_processes_refuted), an effect of vtkspace (C59_separation_refuted), patches whose byte counts do not fit into int (C59_large_patches_refuted). |
| C60 | The mappings describe the surfaces they are named after | proved | `Prop_Map` | `C60_cubedsphere` `C60_fivepatch` `C60_squareddisk` `C60_pillowdisk` `C60_pillowdisk5` `C60_pillowsphere` `C60_pillowsphere_ghost` `C60_annulus` `C60_latlong` `C60_torus` `C60_twisted_torus` `C60_bilinear` `C60_rotation` `C60_scale_shift` `C60_rotation_about_x_refuted` `C60_pillowdisk_centre_refuted` | exact real arithmetic; the squared disk and the bilinear map are not claimed to cover. Refuted: the pillow disk reaches its centre (C60_pillowdisk_centre_refuted), the option phi turns about the x axis (C60_rotation_about_x_refuted). Uses the standard library's axioms of the real numbers. |
| C61 | Metric terms are those of the mapping, do not depend on the history of a patch and conserve area | proved | `Prop_Metric` | `C61_build` `C61_mesh` `C61_area` `C61_history` `C61_conservation` `C61_total_area` `C61_affine_area` `C61_normals` `C61_edges` `C61_flat` `C61_plane_not_declared_flat` `C61_curved` `C61_neighbours` `C61_not_square_refuted` | Exact real arithmetic; axioms of the standard library's Reals. The assumption that a map context which answers 'affine' has an affine mapping is explicit. Square patches as average_area requires; C61_not_square_refuted shows what happens otherwise. Surface normals and curvature of curved cells are stated as the discrete resultant of the outer face normals (C61_curved), not as limits. |
| C62 | Block corners of the pillow sphere | proved | `Prop_Pillow` | `C62_copy` `C62_average` `C62_average_mean` `C62_average_corner_0_refuted` `C62_interpolate` `C62_interpolate_not_mirrored_refuted` | Exact arithmetic. C62_average needs, at corner 0, equal areas in a row of ghost cells; C62_average_corner_0_refuted and C62_interpolate_not_mirrored_refuted show what the code does otherwise. |
| C63 | Extruded patches | proved | `Prop_Extruded` `Prop_Extruded2` `Prop_Extruded3` | `C63_copy_face` `C63_copy_corner` `C63_average_face` `C63_average_corner` `C63_interpolate_face` `C63_interpolate_corner` `C63_average2coarse` `C63_average_constant` `C63_mass` `C63_interpolate2fine` `C63_roundtrip` `C63_refine_iff` `C63_coarsen_iff` `C63_no_conflict` `C63_thresholds` `C63_mass_without_mapping` `C63_error_sums` `C63_conflict_refuted` `C63_mapped_mass_refuted` `C63_error_norms_refuted` `C63_not_square_refuted` | Exact arithmetic except for the index transformations, which are proved for any correctly rounded arithmetic. Square patches with an even number of columns. A user-supplied criterion is not modelled. C63_mapped_mass_refuted, C63_error_norms_refuted, C63_conflict_refuted and C63_not_square_refuted show what fails. |
| C64 | Water on a bottom keeps its level, mass and speed between grid levels (GeoClaw) | proved | `Prop_Geoclaw` `Prop_Geoclaw2` `Prop_Geoclaw3` | `C64_average2coarse` `C64_average_face` `C64_average_corner` `C64_depth` `C64_mass` `C64_rest_coarsened` `C64_velocity` `C64_patch_mass` `C64_interpolate2fine` `C64_interpolate_face` `C64_interpolate_corner` `C64_rest_refined` `C64_ocean_refined` `C64_ghost_depth` `C64_refined_mass` `C64_roundtrip` `C64_refined_depth_refuted` `C64_partly_wet_refuted` `C64_high_bottom_refuted` `C64_new_velocity_refuted` | Six routines modelled (averaging and interpolation for regridding, faces, corners) over exact rationals with rounding of the coordinates. Refuted parts are stated as C64_*_refuted: refined_depth, partly_wet, high_bottom, new_velocity. |
| C65 | The elliptic operators compute the discrete equations and their boundary conditions (ThunderEgg) | proved | `Prop_Elliptic1` `Prop_Elliptic2` `Prop_Elliptic3` `Prop_Elliptic4` | `C65_apply` `C65_apply_internal` `C65_patch_problem` `C65_mesh` `C65_symmetric` `C65_unique` `C65_insulated` `C65_boundary_effect` `C65_boundary_values` `C65_two_sides_refuted` `C65_fields_refuted` `C65_coefficient_refuted` `C65_slope_refuted` `C65_vector_view` `C65_vector_store` `C65_vector_round_trip` | The three patch operators, the boundary-value routine and the vectors are modelled over exact rationals; ThunderEgg itself (iterative solvers, multigrid, ghost fillers) is external. Refuted parts are stated as C65_*_refuted: two_sides, fields, coefficient, slope. |
| C66 | One step of the clawpack 5.x solver on a patch | proved | `Prop_Step5` | `C66_values` `C66_same_as_46` `C66_one_grid` `C66_conservative` `C66_quiet` `C66_fwaves` `C66_options` `C66_corner_refuted` `C66_limiter_refuted` `C66_two_solvers_refuted` `C66_registered` `C66_mixture_refuted` | values with any arithmetic and any Riemann solvers; agreement with 4.6 for waves away from three-block corners; conservation, constant states and f-waves in exact arithmetic; three-block corners, limiter 6 and two solvers with different options refuted |
| C67 | The patch routines for the 5.x data layout do what those for the 4.6 layout do | proved | `Prop_Patch5` | `C67_interpolate_face` `C67_interpolate_corner` `C67_filled` `C67_four_layers_refuted` `C67_interpolate2fine` `C67_mean` `C67_timeinterp` `C67_third_layer_refuted` `C67_roundtrip` `C67_layers_refuted` `C67_refine` `C67_refine_builtin` `C67_always_refine` `C67_threshold_variable_refuted` | Model_Patch5. Refuted without the restrictions: C67_four_layers_refuted, C67_third_layer_refuted, C67_layers_refuted, C67_threshold_variable_refuted. The routines whose statements agree with the 4.6 ones up to the order of indices (copy, average, coarsening, capacity fix) are covered by the models of those. |
| C68 | Text frames hold the whole forest, whatever the schedule of the processes | proved | `Prop_Ascii` | `C68_frames` `C68_geoclaw_frames` `C68_any_time` `C68_other_files` `C68_completes` `C68_partition` `C68_solution` `C68_solution_refuted` `C68_prefix_refuted` `C68_long_prefix_refuted` `C68_frame_number_refuted` `C68_geoclaw_frame_number_refuted` `C68_many_patches_refuted` `C68_many_equations_refuted` `C68_geoclaw_five_equations_refuted` | Proved for the prefix fort, frames below 10000, up to 20 equations (GeoClaw: 1 to 4) and integers below 100000; the exceptions are the refuted theorems. The text of a real number under an edit descriptor is left open. |
| C69 | GeoClaw refines and coarsens by the regions first and by the water second | proved | `Prop_GeoTag` | `C69_refine` `C69_coarsen` `C69_no_thrashing` `C69_maximum` `C69_reaches` `C69_hysteresis` `C69_minimum_refuted` `C69_initial_refuted` `C69_speed_refuted` | The tags are characterised exactly for all regions and data (exact arithmetic; the comparison of a square root is made without it); allowflag is an arbitrary predicate. C69_reaches is over histories of regriddings of any length. The refuted theorems are the three statements in the comments of the code that do not hold. |
| C70 | The initial mesh is the one the refinement criterion asks for | proved | `Prop_Init` | `C70_criterion` `C70_exact` `C70_exists` `C70_clawpatch` `C70_geoclaw_refuted` | p4est's adaptation is a contract: marked patches are refined, families are merged only if all four are marked, anything else may be refined below maxlevel; C70_exists shows it can be met. C70_geoclaw_refuted runs the loop with the GeoClaw criteria of C69. |
| C71 | The grids of the patches tile the domain | proved | `Prop_Geom` | `C71_brick` `C71_single` `C71_manifold` `C71_sizes` `C71_edges` `C71_upper_edge_refuted` | 2D clawpatch; that the quadrants of a block cover it once is p4est's contract. The tiling is proved in exact arithmetic, agreement on the grid lines for every order preserving rounding that is exact on representable numbers. C71_upper_edge_refuted: bx itself is missed when bx - ax is not a double. |
| C72 | The picture of the mesh | proved | `Prop_Tikz` | `C72_rectangle` `C72_rectangle_single` `C72_tiles` `C72_rectangle_refuted` `C72_complete` `C72_one_process` `C72_short` `C72_order_refuted` `C72_record_refuted` | Levels up to 15, where pow_int has no overflow (C38). The order of the serialized sections is taken from C29. C72_rectangle_refuted (IEEE double arithmetic of the standard library, evaluated by the kernel), C72_order_refuted and C72_record_refuted: what the code does not do. |
| C73 | GeoClaw: dry cells, moving bed and source terms | proved | `Prop_GeoSrc` | `C73_clean` `C73_topography` `C73_topography_refuted` `C73_bed_current` `C73_bed_final` `C73_bed_final_refuted` `C73_depth` `C73_friction` `C73_coriolis` `C73_coriolis_refuted` `C73_storm` `C73_rest` | Over the reals; rounding is not modelled. wind_drag, storm_location, storm_direction and atan2 are arbitrary functions. C73_topography_refuted, C73_bed_final_refuted and C73_coriolis_refuted show where the expectation fails; C73_coriolis is the strongest order that holds. The bed is represented by the time it was computed for; the interpolation in topo_update and setaux is not modelled. |
| C74 | Timers never abort a run, exclusive timers never overlap, and the timing report adds up | proved | `Prop_Timer` | `C74_no_abort` `C74_exclusive` `C74_ghost_update` `C74_report` `C74_sums` `C74_unaccounted` `C74_unaccounted_refuted` `C74_means` `C74_means_refuted` `C74_threads` `C74_threads_refuted` | All executions of initialise, run and finalise in a control-flow model of every timer call of the core library; UNACCOUNTED, the mean grid counts and clawpack 5.x with OpenMP are refuted. User call-backs are taken not to touch timers; CUDA solvers and the statistics over processes are not modelled. |
| C75 | GeoClaw's time steps resolve a moving sea floor | proved | `Prop_GeoRun` | `C75_substeps` `C75_motion_resolved` `C75_output_times` `C75_after_motion` `C75_cfl_refuted` `C75_instant_refuted` `C75_outstyle_4_refuted` `C75_diagnostics_refuted` | Exact rational times; the interval of motion and dt_max_dtopo are parameters; glob->curr_dt is left out. The four limits in the statement are the theorems ending in _refuted. |
| C76 | Boundary conditions of extruded patches fill exactly the cells beyond the domain | proved | `Prop_Bc3` | `C76_values` `C76_unchanged` `C76_vertical` `C76_again` `C76_periodic_refuted` `C76_thin_refuted` `C76_scalar_wall_refuted` `C76_user_refuted` | Exact rational values; reads of unassigned cells are allowed and copied. The four limits in the statement are the theorems ending in _refuted. Which faces lie on the boundary is C55 and C48. |
| C77 | GeoClaw: the bathymetry of a cell is the exact average of the finest topography over it | proved | `Prop_Topo` | `C77_integral` `C77_partition` `C77_bounds` `C77_surface_only` `C77_children` `C77_stop` `C77_area` `C77_full_cover` `C77_one_file` `C77_in_bounds` `C77_check_refuted` | C77_integral: the result equals the midpoint Riemann sums of the finest-data surface on every partition containing the grid lines; C77_partition: such partitions exist; C77_bounds, C77_surface_only, C77_children, C77_stop, C77_area, C77_full_cover, C77_one_file, C77_in_bounds: the consequences in the statement; C77_check_refuted: the start-up check lets 1% of the domain uncovered. Cartesian coordinates and exact arithmetic only. |
| C78 | GeoClaw: the bathymetry of a patch depends only on where its cells are | proved | `Prop_SetAux` | `C78_values` `C78_untouched` `C78_stop` `C78_neighbours` `C78_levels` `C78_periodic_refuted` | C78_values, C78_untouched, C78_stop: the result of setting the bathymetry of a patch; C78_neighbours: patches of a level agree; C78_levels: a cell's bathymetry is the average of the four finer cells'; C78_periodic_refuted: not so across periodic boundaries. Exact arithmetic, Cartesian coordinates. |
| C79 | GeoClaw's initial state is water at rest at sea level plus the average of the perturbation | proved | `Prop_Qinit` | `C79_rest` `C79_added` `C79_surface` `C79_depth` `C79_untouched` `C79_negative_refuted` `C79_dry_refuted` `C79_volume_refuted` | Rational arithmetic, Cartesian coordinates. Refuted in full generality: a type 1 trough deeper than the water gives a negative depth (C79_negative_refuted), a dry cell whose bottom is exactly at sea level receives momentum (C79_dry_refuted), and a cell that the file covers partly receives more water than the integral of the perturbation over it (C79_volume_refuted). |
| C80 | GeoClaw's boundary conditions extend bathymetry and water together | proved | `Prop_GeoBc` | `C80_values` `C80_rest` `C80_same_cell` `C80_again` `C80_stop` `C80_periodic_refuted` | Rational arithmetic; the bathymetry aux(1) is kept as component meqn+1 of the array. Refuted in full generality: a side declared periodic (2) that the mesh does not connect is left unset without an error (C80_periodic_refuted). |
| C81 | GeoClaw's limiter compares each wave with its unlimited upwind neighbour | proved | `Prop_GeoLimiter` | `C81_values` `C81_untouched` `C81_tvd` `C81_uniform` `C81_mirror` `C81_beam_warming_refuted` `C81_mirror_refuted` | Rational arithmetic. Refuted in full generality: Beam-Warming can turn a wave around (C81_beam_warming_refuted), and a standing wave is always compared with the wave on its right, so that mirrored data do not give the mirrored result (C81_mirror_refuted). |
| C82 | One step of GeoClaw's solver on a patch | proved | `Prop_GeoStep` | `C82_interface` `C82_total` `C82_capacity` `C82_conservative` `C82_rest` `C82_untouched` `C82_courant` `C82_courant_capacity` `C82_courant_attained` `C82_values` `C82_corners` | Model_GeoStep: geoclaw_step2_wrap_fort.f, geoclaw_step2_fort.f90 and geoclaw_flux2fw_fort.f in Cartesian coordinates, with the limiter of Model_GeoLimiter and arbitrary Riemann solvers. Values of the update (without capacity function); fluxes at an interface differ by the fluctuations; totals; rest; ghost cells; Courant number; corners where three blocks meet. |
| C83 | What GeoClaw records at a gauge | proved | `Prop_GeoGauge` | `C83_cell` `C83_dry` `C83_linear` `C83_between` `C83_between_refuted` | Model_GeoGauge: geoclaw_gauges_fort.f90 completely, over exact rationals. That recorded values lie between those of the cells used is proved in the upper right quarter of the cell and refuted elsewhere. |
| C84 | GeoClaw's transverse Riemann solver | proved | `Prop_GeoRpt` | `C84_blocked` `C84_split` `C84_linear` `C84_in_step` `C84_mirror_refuted` | Model_GeoRpt: rpt2_geoclaw.f in Cartesian coordinates, over rationals with an arbitrary positive square root function. Symmetry under exchange of the two cells is refuted. |
<!-- end table -->

## 6. Claims the code does not satisfy

Each line is a theorem with a concrete witness; the property then holds with the
missing condition as a hypothesis.

| theorem | finding |
|---|---|
| `C14_fixed_step_refuted` | with a fixed time step output times are overshot |
| `C15_zero_interval_refuted` | `nstep = 0` passes the option check and divides by zero |
| `C16_copy_constructor_refuted`, `C16_debug_self_assignment_refuted` | the copy constructor of array boxes never allocates, so the copy of a non-empty box has an indeterminate data pointer; self-assignment in a debug build loses the values |
| `C17_small_patch_refuted` | on small patches accepted by the option check (ghost strips overlap) some cells a neighbor needs are not transferred |
| `C19_odd_size_refuted`, `C23_odd_size_refuted` | odd `mx` is accepted; the last column, or ghost cells in the middle of a face, are never written |
| `C19_not_square_refuted` | `mx <> my`: the row offset is computed from `mx`, some rows are never written (the option check for it is disabled) |
| `C20_one_ghost_layer_refuted` | `mbc = 1`: refinement writes out of bounds |
| `C20_mapped_range_refuted` | on mapped grids refinement may leave the range of the coarse values |
| `C24_one_ghost_layer_refuted` | with one ghost layer, accepted by the options, flux correction writes out of bounds |
| `C26_threshold_variable_refuted` | `threshold-variable > meqn` is not rejected |
| `C27_below_range_overwritten`, `C27_delete_inside_accepted` | an exchange of levels mn..mx also rewrites ghost patches of level mn - 1 from older data; deleting the exchange object during an exchange is not rejected |
| `C29_repeated_refuted` | two serialized sections in a row may overlap on different processes |
| `C34_regression_check_refuted` | `regression_check` is not restored |
| `C38_no_overflow_refuted` | the power loop squares once too often and overflows |
| `C39_zero_buffer_refuted` | `gauge_buffer_length = 0` is accepted and overflows the buffer |
| `C40_shared_edge_refuted`, `C40_no_brick_refuted`, `C40_outside_refuted` | gauges on an edge between blocks, without a brick, or outside the domain |
| `C41_padding_refuted` | sections whose size is 15 modulo 16: 17 bytes of padding are needed, the assertion allows 16 and the array has no room |
| `C43_*_refuted` | an MPI conversion error aborts; the public function has a message for one code only; after a short write the processes return different codes, wait forever or abort; the error path of the count-per-tree block fails its own assertion |
| `C45_patch_number_refuted` | the recorded patch number goes stale |
| `C46_stale_copy_refuted` | before the exchange stale remote copies are read |
| `C47_remote_coarse_refuted` | wrong block number for a remote coarse corner neighbor |
| `C48_single_tree_refuted` | without a brick the assertion compares a pointer with 0 and fails |
| `C49_int_range_refuted` | numbers outside `int` are silently changed |
| `C50_exact_division_refuted`, `C50_unusable_refuted` | settings the checks let through |
| `C51_save_failure_refuted` | only the root stops when saving options fails |
| `C32_several_processes_refuted` | a point to which several processes contribute gets only the contributions of the lowest of them |
| `C53_not_square_refuted` | `interpolate_face`: the loop along faces normal to x runs to mx instead of my |
| `C54_deep_block_corner_refuted` | `interpolate_corner` where four blocks meet: an intermediate index leaves the range of int at deep levels |
| `C55_scalar_wall_refuted` | `clawpack46_bc2_default.f`: a wall with one equation reads and writes component 2, out of bounds; the option check accepts it |
| `C57_fwaves_refuted` | `clawpack46_flux2fw.f`: the right-going transverse part is scaled with the capacity of the wrong cell |
| `C57_one_ghost_layer_refuted`, `C57_order_refuted` | settings of the solver that nothing checks: one ghost layer with a limiter reads out of bounds; order 3 2 uses unassigned corrections |
| `C58_ghosts_not_filled_refuted` | `init_ghostcell` is off by default: the first step uses whatever is in ghost cells |
| `C59_several_processes_refuted` | VTK output without `P4EST_ENABLE_MPIIO`: only process 0 opens the file, the other processes write through a pointer that was never set |
| `C59_separation_refuted` | the option `vtkspace`, described as separating patches visually, has no effect |
| `C59_large_patches_refuted` | the size in bytes of a patch is computed in int and overflows for large patches |
| `C60_pillowdisk_centre_refuted` | `mapc2m_pillowdisk`: no point is mapped to the centre of the disk, since the larger coordinate is raised to 1e-10 |
| `C60_rotation_about_x_refuted` | `set_rotate`: the second angle turns about the y axis; the option `phi` is documented as the rotation about the x axis (`fclaw_options.c` 324) |
| `C61_not_square_refuted` | `average_area` (`fclaw2d_metric_default_fort.f90` 729) shifts rows by `jg*mx` where it should use `jg*my`: areas built from finer patches are written out of bounds when `my + 2 mbc < mx` |
| `C61_plane_not_declared_flat` | `compute_surf_normals`: on a planar surface for which the context does not answer that it is flat, surface normals are 0/0 (the curvature is 0, as it should be) |
| `C62_average_corner_0_refuted` | `fclaw2d_pillow46_average_block_corner`, corner 0: `kc = areacoarse(1-ibc,1-ibc)` where `areacoarse(1-ibc,1-jbc)` is meant; constant data are not preserved |
| `C62_interpolate_not_mirrored_refuted` | `fclaw2d_pillow46_interpolate_block_corner`: the shifts have the sign of corner 0 at all corners |
| `C63_conflict_refuted` | extruded patches: `tag4refinement` looks at the layers above and below, `tag4coarsening` does not; a family is tagged for coarsening while its members are tagged for refinement |
| `C63_mapped_mass_refuted` | `fclaw3dx_clawpatch46_fort_conservation_check` takes the volumes as a 2D array of areas (so the lowest layer of ghost cells) and multiplies by dz |
| `C63_error_norms_refuted` | `fclaw2d_clawpatch_diagnostics.c`: with `PATCH_DIM` 3 nothing is added to the area the norms are divided by; assertion, or division by zero |
| `C63_not_square_refuted` | `fclaw3dx_clawpatch46_fort_average2coarse`: the row offset is computed from mx |
| `C64_refined_depth_refuted` | `fc2d_geoclaw_fort_interpolate2fine` stores negative depths over dry land above sea level (ghost cells are cut off at zero); only `geoclaw_b4step2` of the next step repairs it |
| `C64_partly_wet_refuted` | GeoClaw averaging divides the fine water by the number of wet cells: one wet quarter on a flat bottom becomes four times the water |
| `C64_high_bottom_refuted` | GeoClaw averaging loses water when the coarse bottom is above the mean of the fine bottom |
| `C64_new_velocity_refuted` | `fc2d_geoclaw_fort_interpolate2fine`: larger velocities in shallow fine cells (the check is commented out) |
| (in `C64_interpolate_face`, `C64_average2coarse`) | GeoClaw uses only the coarse layer next to the face, so outer ghost layers stay unfilled when `mbc` is 4 or more; equations beyond the third are never averaged |
| `C65_two_sides_refuted` | `thunderegg_fort_apply_bc_default` does not clear its array between faces: in a patch with two physical sides the values of the first are subtracted twice from the right hand side |
| `C65_fields_refuted` | the same routine adjusts only the first field of the right hand side |
| `C65_coefficient_refuted` | the same routine uses the plain Laplacian; with the variable coefficient operator and a coefficient other than 1 at the boundary the result is wrong |
| `C65_slope_refuted` | `fivePoint` and `varpoisson` ignore `boundary_conditions`: a side of type 2 (slope) is treated as one with given value |
| `C66_corner_refuted` | `clawpack5_step2.f90` prepares the corner cells where three blocks meet once, for the sweep in x, and uses them in both sweeps; 4.6 prepares them for each sweep |
| `C66_limiter_refuted` | limiter 6 of the 4.6 solver is accepted by the 5.x solver and silently replaced by minmod |
| `C66_two_solvers_refuted`, `C66_mixture_refuted` | `clawpack5_set_amr_module` keeps mwaves, mcapa, order, limiters and use_fwaves in a Fortran module shared by all solvers: the options processed last are used by all |
| `C67_four_layers_refuted` | with claw-version 5 interpolation to a finer neighbor fills two layers of ghost cells, whatever mbc is |
| `C67_third_layer_refuted`, `C67_layers_refuted` | `clawpatch5_fort_timeinterp` and `clawpatch5_fort_local_ghost_pack` use 2 where the 4.6 routines use mbc: with another number of layers the time interpolation is incomplete and packing always fails |
| `C67_threshold_variable_refuted` | `clawpatch5_fort_tag4refinement` passes scalars (first component) for arrays that the criteria index with threshold-variable |
| `C68_solution_refuted` | writing a frame sets values of the solution below 1e-99 to zero (`fclaw2d_clawpatch46_output_ascii.f` 83-85), so output changes the run |
| `C68_prefix_refuted` | the patches go to `<prefix>.qNNNN` but the header and the emptying of the file use `fort` (`fclaw2d_clawpatch_output_ascii.c` 82, 119): with another prefix `fort.q` stays empty and a second run appends to the file of the first |
| `C68_long_prefix_refuted` | the Fortran routine reads 11 characters of the name: with a prefix of more than five letters the frame number is cut off and all frames go to one file |
| `C68_frame_number_refuted` | `sprintf` of frame 10000 overflows `matname1[11]` |
| `C68_geoclaw_frame_number_refuted` | GeoClaw writes frame 10000 over frame 0 |
| `C68_many_patches_refuted` | format `i5`: patch numbers from 100000 on are printed as stars |
| `C68_many_equations_refuted` | more than 20 equations stop the run after the header of the first patch |
| `C68_geoclaw_five_equations_refuted` | the check `meqn > 5` forgets the surface height: with 5 equations format `5E26.16` breaks each cell into two lines |
| `C69_minimum_refuted` | the comment in `fc2d_geoclaw.cpp` (420-431) says a patch is refined when its level is below the minimum of any region it meets; `fc2d_geoclaw_test_regions.f90` takes the smallest of the minima, so an overlapping region with a lower minimum switches the first off |
| `C69_initial_refuted` | "don't coarsen on initial refinement" (`fc2d_geoclaw_flag2refine_fort.f90` 18) returns 0, the value that allows coarsening: while the initial grid is built every family not held by a region is marked for coarsening, even with waves above the full tolerance |
| `C69_speed_refuted` | the speed tolerances are taken from the level of the patch in both directions (`level <= m`), so a patch refined because of tolerance m = its level gives children that no longer see this tolerance and are coarsened at once |
| `C70_geoclaw_refuted` | consequence of `C69_initial_refuted` for the loop in `fclaw2d_initialize.c` 163-226: with waves above the tolerance everywhere and no regions, the last pass merges the families of maxlevel again, so the initial mesh ends one level too coarse |
| `C71_upper_edge_refuted` | `fclaw2d_clawpatch.cpp` 193-289: the upper edge of the last patch is computed as ax + (bx - ax) * 1, which is not bx when bx - ax is not a double (ax = -1, bx = 2^-60, every rounding) |
| `C72_rectangle_refuted` | `fclaw2d_output_tikz.c` 139-140: xlower / dxf is truncated to int; with mi = 5 the double quotient 0.6 / 0.2 is below 3, so the block in column 3 is drawn in column 2 |
| `C72_order_refuted`, `C72_record_refuted` | `fclaw2d_output_tikz.c` 213-220: the file is opened before and closed after the serialized section, so what is still in the buffer of a process is written at any later time; the text of another process can come between two parts of a patch |
| `C73_topography_refuted` | `geoclaw_b4step2_fort.f90` 98-142: with num_dtopo = 0 the interval is (1d99, 0) and the branch for "tmin == tmax" answers true for every t >= 0: the bed is recomputed in every step of a run without moving topography |
| `C73_bed_final_refuted` | `geoclaw_b4step2_fort.f90` 60-71: the bed is refreshed only in steps that start inside the interval; aux_finalized, which GeoClaw uses to refresh once more afterwards, is imported but not used |
| `C73_coriolis_refuted` | `geoclaw_src2_fort.f90` 93-94: q(2,i,j) is overwritten before it is used for q(3,i,j) |
| `C74_unaccounted_refuted` | `fclaw_timer.c` 205-218: the sums of the exclusive times are stored in `int` variables and so cut to whole seconds; UNACCOUNTED is too large by up to two seconds |
| `C74_means_refuted` | `fclaw_timer.c` 178-180: the mean grid counts are quotients of integers |
| `C74_threads_refuted` | `fc2d_clawpack5.cpp` 382-395: the patch update uses the timers that are not thread-safe, so two OpenMP threads can abort the run |
| `C75_cfl_refuted` | `fc2d_geoclaw_run.c` lines 324-343, 369: a step over the motion is not retaken, and the next step size is the outer step scaled by the CFL number of the short calls; a later call at 1.8 is accepted although the limit is 1 |
| `C75_instant_refuted` | `fc2d_geoclaw_run.c` lines 149-151: a bed that moves at a single instant inside a step gives `ceil(0/0)` converted to int |
| `C75_outstyle_4_refuted` | `fc2d_geoclaw_run.c` lines 593-653: output style 4 ignores the motion and `dt_max_dtopo` |
| `C75_diagnostics_refuted` | `fc2d_geoclaw_run.c` lines 578-588: the diagnostics before a frame are commented out, so without `advance_one_step` output style 3 gathers diagnostics only at time 0 |
| `C76_periodic_refuted` | `fc3d_clawpack46_bc3_default.f90` 61-64 and alike: the number 2 on a horizontal side of the boundary prints a message and leaves the ghost cells as they were |
| `C76_user_refuted` | `fc3d_clawpack46_bc3_default.f90` 42-45 and alike: the number 0 stops the program; bottom and top are checked for every patch |
| `C76_scalar_wall_refuted` | `fc3d_clawpack46_bc3_default.f90` 82, 193, 313: a wall negates component 2, 3 or 4 without looking at the number of equations |
| `C76_thin_refuted` | `fc3d_clawpack46_bc3_default.f90` 304: with fewer layers than ghost cells a wall at the bottom reads ghost cells above the patch |
| `C77_check_refuted` | `topo_module.f90` 281-295: the start-up check accepts (with a warning) topography that misses up to 1% of the domain. A cell without data then stops the run (`cellgridintegrate2.f` 75-80) and a cell with data over a part of it is averaged with height 0 in the rest, e.g. -500 over data that is -1000 everywhere |
| `C78_periodic_refuted` | `geoclaw_setaux_fort.f90` 210-245: ghost cells beyond the domain copy the nearest cell of the domain also across a periodic boundary, where the solution in them is that of the opposite side |
| `C79_negative_refuted` | `qinit_module.f90` lines 163-166: a type 1 perturbation is added without a lower bound, so a trough deeper than the water gives a negative depth. |
| `C79_dry_refuted` | `qinit_module.f90` line 164: the test is `aux(1,i,j) <= sea_level`, so a cell with its bottom exactly at sea level is dry and still receives momentum. |
| `C79_volume_refuted` | `qinit_module.f90` lines 157-161: the integral is divided by the area of the covered part of the cell, so a partly covered cell receives more water than the integral of the perturbation over it, and the added volume depends on the grid. |
| `C80_periodic_refuted` | `geoclaw_bc2_fort.f` lines 62-64, 105-107, 150-152, 193-195: condition 2 does nothing ("handled by p4est"), so on a mesh that is not periodic at this side the ghost cells keep what they held; the Clawpack 4.6 routine stops here. |
| `C81_beam_warming_refuted` | `philim.f` line 61: the factor of limiter 5 is the ratio itself, without bounds, so a wave next to an opposite one is turned around. |
| `C81_mirror_refuted` | `geoclaw_limiter_fort.f` lines 48-52: a wave with speed exactly zero is compared with its right neighbour, so mirrored data do not give the mirrored result. |
| `C83_between_refuted` | `geoclaw_gauges_fort.f90` 20-62: the four cells are always the gauge's and those to its right and above, whatever the sign of the offset from the cell centre, so in the left or lower half the formula extrapolates and may record negative depths |
| `C84_mirror_refuted` | `rpt2_geoclaw.f` 131-135: the slowest speed across looks only at the left cell and the fastest only at the right one, although both lie in the same row, so exchanging the two cells changes the split |
<!-- more refutations -->

## 7. Tests against wrong programs

`seeded/LOG.jsonl` records edits of the model that correspond to realistic bugs
(wrong boundary, missed case, swapped argument, dropped update), made in a scratch
copy that was rebuilt.  Each line names the definition, the edit, the claim it
breaks, the lemmas that failed, the theorems that are no longer proved, and theorems
tightened as a consequence.
