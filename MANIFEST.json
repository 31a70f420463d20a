{
 "claims": [
  {
   "property": "C01",
   "status": "proved",
   "theorems": [
    "C01_InsertionSort_sorts",
    "C01_InsertionSortIds_stable"
   ],
   "note": "InsertionSort and InsertionSortIds for every array length; keys compared exactly (no NaN)."
  },
  {
   "property": "C02",
   "status": "proved",
   "theorems": [
    "C02_QuickSelect_partitions"
   ],
   "note": "Every range, pivot and key array; the loop is shown to end within right-left+1 iterations."
  },
  {
   "property": "C03",
   "status": "proved",
   "theorems": [
    "C03_CreateTreeStructure",
    "C03_walk_is_traversal"
   ],
   "note": "Cell numbering and link fields for every depth; every walk loop over a linked cell array equals the recursive traversal."
  },
  {
   "property": "C04",
   "status": "proved",
   "theorems": [
    "C04_BuildTree"
   ],
   "note": "Full sequential build (ComputeTreeSize, CreateTreeStructure, DivideTreeCell, list part of StockCellProperties). Precondition: no dead particle in the range (needed, see C04_dead_particle_raises). MPI-only bounding box recomputation not modelled."
  },
  {
   "property": "C05",
   "status": "proved",
   "theorems": [
    "C05_gather_point",
    "C05_gather_cell",
    "C05_neighbour_list",
    "C05_neighbour_manager"
   ],
   "note": "Point gather: exact result. Cell gather, gather-scatter and manager searches: no duplicates, no overrun, complete. Tree hypotheses are those established by C41."
  },
  {
   "property": "C06",
   "status": "proved",
   "theorems": [
    "C06_once",
    "C06_mass",
    "C06_near_complete",
    "C06_opening",
    "C06_opening_exact"
   ],
   "note": "Holds for any overlap test and any opening criterion; neighbour completeness for domains without periodic wrap."
  },
  {
   "property": "C07",
   "status": "partial",
   "theorems": [
    "C07_divide",
    "C07_build_partial",
    "C07_no_error",
    "C07_first_build",
    "C07_two_particles",
    "C07_depth_error_refuted"
   ],
   "note": "Division of a cell, the grown and the stocked tree are proved (C07_divide, C07_build_partial) for every tree state a program can reach. The last clause of the property is false of the code: firstCell/lastCell are written past their end before the level test (C07_no_error, C07_depth_error_refuted), every first build of more than Nleafmax particles near the origin in one orthant overruns (C07_first_build), and a new tree for at most two particles has too few cells (C07_two_particles). C07_build_partial gives a sufficient condition for success."
  },
  {
   "property": "C08",
   "status": "proved",
   "theorems": [
    "C08_pruned",
    "C08_retry",
    "C08_partition",
    "C08_opening",
    "C08_update"
   ],
   "note": "Pruned trees: CreatePrunedTreeForMpiNode keeps exactly the cells an opening walk of the tree reaches, relabels links so the copy is again a linked tree, its leaves partition the original contents, any cell left closed is outside the reach of every cell of the other domain, retry on overflow terminates with the same answer; UpdateLeafCells copies the data of the original cells."
  },
  {
   "property": "C09",
   "status": "partial",
   "theorems": [
    "C09_BoxOverlap",
    "C09_BoxOverlap_point",
    "C09_BoxOverlap_sym",
    "C09_BoxesOverlap",
    "C09_ParticleInBox",
    "C09_ParticleInBox_split",
    "C09_FractionalBoxOverlap_partial",
    "C09_FractionalBoxOverlap_refuted"
   ],
   "note": "FractionalBoxOverlap is refuted when edges coincide (C09_FractionalBoxOverlap_refuted); everything else is proved for all boxes."
  },
  {
   "property": "C10",
   "status": "proved",
   "theorems": [
    "C10_NearestPeriodicVector",
    "C10_finder_accepts",
    "C10_GhostFinder_NearestPeriodicVector",
    "C10_ApplyPeriodicDistanceCorrection"
   ],
   "note": "All box sizes, dimensions up to three, positions in the box; both NearestPeriodicVector and the ghost finder's variant with its flags."
  },
  {
   "property": "C11",
   "status": "proved",
   "theorems": [
    "C11_CheckBoundaries",
    "C11_inside"
   ],
   "note": "One call on any array of particles; periodic, mirror, open and wall boundaries in every combination of faces."
  },
  {
   "property": "C12",
   "status": "partial",
   "theorems": [
    "C12_PeriodicBoxOverlap_partial",
    "C12_PeriodicBoxOverlap_refuted"
   ],
   "note": "Proved for boxes periodic in every or no direction; with mixed boundaries PeriodicBoxOverlap reads an unassigned variable (C12_PeriodicBoxOverlap_refuted)."
  },
  {
   "property": "C13",
   "status": "partial",
   "theorems": [
    "C13_ConstructAllGhosts",
    "C13_ScatterGather_partial",
    "C13_ScatterGather_refuted"
   ],
   "note": "ConstructAllGhosts proved without restriction; ConstructGhostsScatterGather proved complete when the output vector has room, and refuted otherwise (dangling reference). ConstructGhostsGather has no caller and is not modelled."
  },
  {
   "property": "C14",
   "status": "proved",
   "theorems": [
    "C14_one_of_two",
    "C14_mirror_always",
    "C14_sweep"
   ],
   "note": "All ids, levels and processing orders; the closure of the active set is the block-step invariant (C16)."
  },
  {
   "property": "C15",
   "status": "proved",
   "theorems": [
    "C15_EndSearch",
    "C15_EndSearch_partition",
    "C15_in_range_complete",
    "C15_Trim",
    "C15_gravity_count",
    "C15_gravity_plain_refuted"
   ],
   "note": "_EndSearch and TrimNeighbourLists for all inputs as the walks use them. The unused combination AddNeib + EndSearchGravity reads out of bounds (C15_gravity_plain_refuted)."
  },
  {
   "property": "C16",
   "status": "partial",
   "theorems": [
    "C16_in_step",
    "C16_finish_together",
    "C16_not_longer_than_requested",
    "C16_time",
    "C16_stars_finest",
    "C16_resync_levels",
    "C16_next_levels",
    "C16_DKD_refuted"
   ],
   "note": "Proved in full for the kick-drift-kick limiter (all runs of the main loop with arbitrary requests, deaths, new sinks, levels added and removed; level_diff_max >= 1). For the drift-kick-drift limiter the claim is false: C16_DKD_refuted exhibits a run. The bound on the new step carries the rounding factor of C17."
  },
  {
   "property": "C17",
   "status": "partial",
   "theorems": [
    "C17_step_not_longer_partial",
    "C17_not_too_short_partial",
    "C17_strict_refuted",
    "C17_above_refuted",
    "C17_longer_refuted"
   ],
   "note": "Proved with a relative slack of 1e-14 per level (the literal 1.44269504088896 is below 1/ln 2) and, for dt <= dt_max, not shortened by more than two. Refuted: the strict/exact bound and the factor-of-two claim for dt_max < dt < 2 dt_max (cast truncates toward zero)."
  },
  {
   "property": "C18",
   "status": "partial",
   "theorems": [
    "C18_limiter",
    "C18_DKD_refuted",
    "C18_level_diff_zero_refuted"
   ],
   "note": "Proved in full for the kick-drift-kick limiter with level_diff_max >= 1 (exact effect on every particle, no division by zero, loop terminates). False for the drift-kick-drift limiter (C18_DKD_refuted) and for level_diff_max = 0 with sinks (C18_level_diff_zero_refuted: division by zero)."
  },
  {
   "property": "C19",
   "status": "proved",
   "theorems": [
    "C19_kdk_predict",
    "C19_kdk_step",
    "C19_kdk_exact",
    "C19_kdk_reversible",
    "C19_dkd_step",
    "C19_dkd_exact",
    "C19_dkd_reversible",
    "C19_kdk_scalars",
    "C19_dkd_scalars"
   ],
   "note": "KDK and DKD for one particle over a step of any number of main-loop passes, any position-dependent field. Assumes the stored dt is the step length (see C43 for when it is not)."
  },
  {
   "property": "C20",
   "status": "partial",
   "theorems": [
    "C20_accretion_conserves_partial",
    "C20_ghost_refuted"
   ],
   "note": "Proved for every schedule (order of assignments, order of sinks, lists found by the searches), with and without smooth accretion: mass, momentum, centre of mass, force, heat and angular momentum (orbital + sink spin) of sinks plus all particles in the array are unchanged; without ghosts this is all the gas. Refuted with periodic or mirror boundaries: swallowing a ghost leaves its original, so the mass grows (C20_ghost_refuted). Real-number arithmetic. Kinetic energy is not conserved by such a merger and not claimed."
  },
  {
   "property": "C21",
   "status": "proved",
   "theorems": [
    "C21_one_sink_each",
    "C21_only_own_particles"
   ],
   "note": "After the first loop each live particle inside at least one sink that found it belongs to exactly one such sink, others to none; in the second loop a sink changes only its own particles."
  },
  {
   "property": "C22",
   "status": "partial",
   "theorems": [
    "C22_creation_partial",
    "C22_densest",
    "C22_mmax",
    "C22_fixed_number",
    "C22_requested_number_refuted",
    "C22_invh_partial",
    "C22_invh_refuted"
   ],
   "note": "Proved: creation takes only eligible particles, moves mass, position, velocity and marks the gas dead; the densest candidate first; nothing if the requested number exists. Refuted: Nsinkfixed may be exceeded in one call (C22_requested_number_refuted), the star's invh does not match its h unless the sink has the kernel's size (C22_invh_refuted)."
  },
  {
   "property": "C23",
   "status": "proved",
   "theorems": [
    "C23_m4_density",
    "C23_m4_gravity",
    "C23_m4_normalised",
    "C23_m4_drag_normalised",
    "C23_m4_gauss"
   ],
   "note": "All six M4 functions in 1-3 dimensions: derivative relations at every s including the joints, continuity, sign, monotonicity, support, Newtonian limit, normalisation, Gauss law; also the drag kernel's normalisation."
  },
  {
   "property": "C24",
   "status": "partial",
   "theorems": [
    "C24_quintic_density",
    "C24_quintic_normalised",
    "C24_quintic_gravity_partial",
    "C24_quintic_gravity_continuous_refuted",
    "C24_quintic_zeta_refuted"
   ],
   "note": "Density functions and normalisations proved in full. Refuted: wzeta (wrong factor and sign) and continuity of wgrav/wpot at s=3 (prefactor 12/359 instead of 12/360). Force = -dpot/ds proved away from s=3."
  },
  {
   "property": "C25",
   "status": "partial",
   "theorems": [
    "C25_gaussian_partial",
    "C25_gaussian_omega_refuted",
    "C25_gaussian_continuous_refuted",
    "C25_gaussian_gravity_refuted",
    "C25_gaussian_normalised_refuted"
   ],
   "note": "Proved: w1, sign, monotonicity, support. Refuted with witnesses: womega (correct at s=0 and 1 only), continuity at the cut-off, gravity functions (all zero), normalisation in 2D."
  },
  {
   "property": "C26",
   "status": "proved",
   "theorems": [
    "C26_table",
    "C26_table_sqd",
    "C26_table_gravity",
    "C26_resolution_refuted"
   ],
   "note": "All finite non-negative separations in binary64 and binary32, all three kernels, tables in s and in s^2, standard resolution 1000; the value returned is that of a grid point within 1.01 spacings. C26_resolution_refuted: a quintic table of 17 entries (allowed by the constructor, never used) is read past its end."
  },
  {
   "property": "C27",
   "status": "proved",
   "theorems": [
    "C27_momentum",
    "C27_momentum_with_gravity",
    "C27_momentum_gravity",
    "C27_energy",
    "C27_energy_with_gravity",
    "C27_angular_momentum",
    "C27_angular_momentum_with_gravity",
    "C27_open_domain",
    "C27_stored",
    "C27_stored_with_gravity"
   ],
   "note": "Over the reals. Momentum and energy for any mutual links including periodic copies; angular momentum for open domains with the lists of the search. Energy needs the stored pressure to be that of the equation of state. Softened gravity of neighbours conserves momentum and angular momentum; tree approximations do not."
  },
  {
   "property": "C28",
   "status": "proved",
   "theorems": [
    "C28_heats",
    "C28_only_approaching",
    "C28_opposes"
   ],
   "note": "For kernels with non-positive derivative on s>=0 and physical particle values (positive density and smoothing length, non-negative mass, h factor, sound speed and alpha)."
  },
  {
   "property": "C29",
   "status": "partial",
   "theorems": [
    "C29_rate_partial",
    "C29_accumulates_refuted",
    "C29_accumulates",
    "C29_not_stored_refuted",
    "C29_never_stored",
    "C29_sign_refuted"
   ],
   "note": "False of the serial code: without gravity the stored rate accumulates over evaluations (ZeroAccelerations does not reset dalphadt, GradhSphTree.cpp:403 adds), with gravity it is never stored and is computed with the wrong sign of div v (GradhSph.cpp:581). Proved: the rate is right for the first evaluation without gravity."
  },
  {
   "property": "C30",
   "status": "partial",
   "theorems": [
    "C30_assign_partial",
    "C30_ignored_partial",
    "C30_lines",
    "C30_accepted",
    "C30_record_read_partial",
    "C30_record_close",
    "C30_default_keys",
    "C30_SetParam_int",
    "C30_bare_name_refuted",
    "C30_colon_refuted",
    "C30_record_read_refuted",
    "C30_double_refuted"
   ],
   "note": "Assignment lines, ignored lines, file reading and record/read round trip proved. Full statement is false: a bare name sets the parameter, a value with ':' is ignored, blanks inside strings are removed, doubles are recorded with six digits (four _refuted witnesses); round trip proved exactly for six-digit doubles and to relative 1e-5 otherwise."
  },
  {
   "property": "C31",
   "status": "partial",
   "theorems": [
    "C31_state_bijective",
    "C31_never_zero",
    "C31_period",
    "C31_no_shorter_period",
    "C31_output_bijective",
    "C31_floatrand_partial",
    "C31_floatrand_refuted",
    "C31_gaussrand_refuted"
   ],
   "note": "Bijectivity, full period 2^64-1 and positivity proved; 'below one' refuted (C31_floatrand_refuted: invrandmax is larger than 2^-64) and the mean/width of gaussrand are ignored (C31_gaussrand_refuted)."
  },
  {
   "property": "C32",
   "status": "partial",
   "theorems": [
    "C32_numbers",
    "C32_when",
    "C32_first_opportunity",
    "C32_contents",
    "C32_restarts_partial",
    "C32_lag_refuted",
    "C32_column_restart_refuted",
    "C32_column_time_refuted",
    "C32_nbody_restart_refuted",
    "C32_first_refuted"
   ],
   "note": "First run: numbers, times, first opportunity (steps no longer than the interval) and contents proved for all runs. Refuted: long steps lag behind, column-format and N-body restarts reuse numbers, column restarts convert the time twice, a restart from a temporary snapshot before the first output time forgets that time. Restarts proved for the Seren formats with tsnapfirst = dt_snap or <= 0, after any history of interrupted jobs."
  },
  {
   "property": "C33",
   "status": "partial",
   "theorems": [
    "C33_crash_partial",
    "C33_first_partial",
    "C33_numbered_kept",
    "C33_restart_refuted",
    "C33_tmp_refuted"
   ],
   "note": "The statement is refuted: a crash while the restart file, or the temporary snapshot it names, is being rewritten leaves nothing to restart from. Proved for every crash point of every history: outside these two windows the restart file names a complete snapshot; numbered snapshots stay complete."
  },
  {
   "property": "C34",
   "status": "proved",
   "theorems": [
    "C34_flags_history",
    "C34_flags_composite",
    "C34_flags_tables",
    "C34_flags_named"
   ],
   "note": "32-bit flag word, all histories of set/unset/reset."
  },
  {
   "property": "C35",
   "status": "partial",
   "theorems": [
    "C35_VerifyUniqueIds_refuted",
    "C35_VerifyUniqueIds_exact",
    "C35_VerifyUniqueIds_partial"
   ],
   "note": "Refuted: [0;0;1] is accepted, because the second loop tests a stale index. C35_VerifyUniqueIds_exact says what is decided."
  },
  {
   "property": "C36",
   "status": "proved",
   "theorems": [
    "C36_InvertMatrix",
    "C36_Euler_dot",
    "C36_Euler_norm",
    "C36_Euler_det",
    "C36_EulerArray"
   ],
   "note": "Over the reals."
  },
  {
   "property": "C37",
   "status": "partial",
   "theorems": [
    "C37_create_partial",
    "C37_create_refuted",
    "C37_ghosts"
   ],
   "note": "Refuted for full storage of one to four particles (C37_create_refuted); proved for five or more; ghost creation proved for any storage."
  },
  {
   "property": "C38",
   "status": "proved",
   "theorems": [
    "C38_delete_dead"
   ],
   "note": "In-place compaction for every arrangement of dead particles."
  },
  {
   "property": "C39",
   "status": "proved",
   "theorems": [
    "C39_pack_unpack",
    "C39_unpack_overrun",
    "C39_displs",
    "C39_displs_blocks",
    "C39_isPowerOfTwo"
   ],
   "note": "Values are their object representation (list of bytes)."
  },
  {
   "property": "C40",
   "status": "proved",
   "theorems": [
    "C40_getClosestIndex"
   ],
   "note": "std::lower_bound by its contract on a sorted range."
  },
  {
   "property": "C41",
   "status": "proved",
   "theorems": [
    "C41_build_and_stock"
   ],
   "note": "Bottom-up StockTree and StockCellProperties, all fields used by the walks; not modelled: vbox/velocity boxes used only for MPI load estimates, worktot."
  },
  {
   "property": "C42",
   "status": "partial",
   "theorems": [
    "C42_star_lists",
    "C42_star_retry_never_ends",
    "C42_star_retry_ends",
    "C42_star_retry_refuted"
   ],
   "note": "The lists are proved exact; termination of the caller's retry loop is refuted (C42_star_retry_refuted)."
  },
  {
   "property": "C43",
   "status": "partial",
   "theorems": [
    "C43_stored_dt_partial",
    "C43_limiter_refuted",
    "C43_new_level_refuted",
    "C43_single_timestep_refuted",
    "C43_integration_step_refuted"
   ],
   "note": "False in four independent ways (C43_*_refuted: limiter, jump above the deepest level stores dt = 0, hydro_single_timestep, integration_step = 2 after a resynchronisation); C43_stored_dt_partial proves it in all remaining cases."
  },
  {
   "property": "C44",
   "status": "proved",
   "theorems": [
    "C44_hot_to_cold"
   ],
   "note": "Both force routines and both conductivity options."
  },
  {
   "property": "C45",
   "status": "partial",
   "theorems": [
    "C45_potential",
    "C45_self_twice_refuted"
   ],
   "note": "False: every particle is in its own neighbour list in addition to the self term of GradhSphTree.cpp:512, so its own potential is counted twice. Proved: the exact formula of the stored potential."
  },
  {
   "property": "C46",
   "status": "partial",
   "theorems": [
    "C46_hydro",
    "C46_gravity_partial",
    "C46_gravity_refuted"
   ],
   "note": "Proved without gravity and with gravity when there are no neighbours for gravity only; with them false (GradhSph.cpp:641 reads sphdata[j] instead of neibpart[j])."
  },
  {
   "property": "C47",
   "status": "partial",
   "theorems": [
    "C47_units_partial",
    "C47_price2008_refuted"
   ],
   "note": "Proved for ComputeSphHydroForces with every viscosity and with no or Wadsley conductivity; false for price2008, whose term is dimensionally inconsistent."
  },
  {
   "property": "C48",
   "status": "partial",
   "theorems": [
    "C48_new_sinks_apart_partial",
    "C48_fixed_radius_refuted",
    "C48_kernel_radius_refuted"
   ],
   "note": "Proved if radii are multiples of h (default) or the exclusion radius covers the actual one; refuted for fixed and kernel radius modes."
  },
  {
   "property": "C49",
   "status": "partial",
   "theorems": [
    "C49_schedule_independent_partial",
    "C49_all_swallowed_partial",
    "C49_same_thread_partial",
    "C49_tree_search_monotone",
    "C49_light_particles_refuted",
    "C49_overlap_refuted",
    "C49_buffer_refuted"
   ],
   "note": "Proved: order of sinks never matters; the order of assignments does not matter if no particle is in two sinks; everything is swallowed if no particle is lighter than the code's tiny_number and both searches agree, which holds if the same thread treats a sink in both loops. Refuted: overlapping sinks depend on the schedule; particles lighter than tiny may stay; with another thread's smaller buffer the second search fails unnoticed and nothing is accreted."
  },
  {
   "property": "C50",
   "status": "partial",
   "theorems": [
    "C50_complete_partial",
    "C50_cases_partial",
    "C50_larger_buffer",
    "C50_no_overrun_refuted"
   ],
   "note": "Proved: complete if the buffer has room for the particles in range plus one leaf; larger buffers do not change complete answers; all cases classified. Refuted: with ghosts, a full buffer in the real tree's search makes the ghost search write at index -1 (C50_no_overrun_refuted)."
  },
  {
   "property": "C51",
   "status": "partial",
   "theorems": [
    "C51_kdtree",
    "C51_oct_refuted"
   ],
   "note": "KD-tree: 2^(level+1)-1 cells always suffice (C51_kdtree). Oct-tree: (2^ndim)^level is too small; C51_oct_refuted gives an octant tree with 9 cells at level 1 where 8 are assumed."
  },
  {
   "property": "C52",
   "status": "proved",
   "theorems": [
    "C52_overlap",
    "C52_exports",
    "C52_pruned_trees"
   ],
   "note": "C52_overlap is one walk, C52_exports the loop over active cells and processes, C52_pruned_trees connects to the pruned copies of C08. Cell centres are assumed to lie within 1.5 box lengths of each other in periodic directions (the code only looks one replica away); arithmetic is over the reals."
  },
  {
   "property": "C53",
   "status": "proved",
   "theorems": [
    "C53_distant",
    "C53_exports"
   ],
   "note": "C53_distant is one walk, C53_exports the loop over active cells and processes; the opening criteria are those of the code, with mac values as stored in the cells; exactly-once is stated with the contents of the cells used. Cell centres within 1.5 box lengths; arithmetic over the reals. Multipoles are not moved to the nearest replica here (left to the Ewald correction)."
  },
  {
   "property": "C54",
   "status": "proved",
   "theorems": [
    "C54_calendar",
    "C54_exchange",
    "C54_constructor_check_passes_all",
    "C54_three_processes"
   ],
   "note": "calendar is a round robin for every power of two, and the blocking exchange it drives cannot deadlock under any buffering, ends, and delivers each message once (C54_calendar, C54_exchange); the constructor's own test for even process numbers never fires and three processes would wait for ever, but gandalf.cpp refuses such numbers"
  },
  {
   "property": "C55",
   "status": "partial",
   "theorems": [
    "C55_transfer",
    "C55_conserved",
    "C55_home_partial",
    "C55_outermost_refuted"
   ],
   "note": "Proved for every accepted number of processes, every message schedule and arbitrary (even inconsistent) views of the domains: the exchange is prepared without error, cannot stop early, and leaves each process exactly the particles prescribed (C55_transfer); with non-overlapping domains nothing is lost or doubled (C55_conserved); every particle inside the tiled box is home (C55_home_partial). Missing and false: particles on the upper faces of the box of all particles are in no half-open domain and stay where they are (C55_outermost_refuted). The tree is taken as stocked (default ntreestockstep = 1)."
  },
  {
   "property": "C56",
   "status": "partial",
   "theorems": [
    "C56_domains_partial",
    "C56_ends_partial",
    "C56_ends_refuted",
    "C56_same_divisions_refuted"
   ],
   "note": "Proved: tiling, divisions strictly inside and even to 1/1000, no array overrun, for every accepted number of processes, whenever the search ends (C56_domains_partial); it ends for work that is spread out (C56_ends_partial). False in general: a box face on a cell face makes FractionalBoxOverlap double-count and the search loop for ever (C56_ends_refuted); processes holding differently pruned trees find different divisions (C56_same_divisions_refuted)."
  },
  {
   "property": "C57",
   "status": "partial",
   "theorems": [
    "C57_update_partial",
    "C57_homeless_refuted",
    "C57_moved_partial",
    "C57_crossing_refuted"
   ],
   "note": "Proved for all numbers of processes and sinks: if exactly one process finds its copy of each sink in its own domain, the exchange stays in its buffers and every other process takes over the owner's values (C57_update_partial). Refuted in general: if a sink is in no domain process 0 writes past its send buffer (C57_homeless_refuted), and one swallowed particle can bring this about since the owner's copy moves before the ownership is decided while the others still have the old position (C57_crossing_refuted). A case found by two processes is not covered."
  },
  {
   "property": "C58",
   "status": "partial",
   "theorems": [
    "C58_ghosts",
    "C58_refresh",
    "C58_established",
    "C58_return",
    "C58_accreted_partial",
    "C58_heating",
    "C58_first_ghost_refuted",
    "C58_boundary_ghost_refuted",
    "C58_two_sinks_refuted"
   ],
   "note": "Proved for all numbers of processes, export lists and boundary ghosts: the exchange makes exact copies (C58_ghosts, C58_refresh) and brings about what the return needs (C58_established); every real particle gets the changes of exactly those listed ghosts that are copies of it (C58_return); heat adds up (C58_heating); a particle changed by one process gets its mass back (C58_accreted_partial). Refuted: the first ghost is never listed by the accretion loop, which tests i > Nhydro (C58_first_ghost_refuted); swallowed boundary ghosts are listed and delete particle iorig of process 0 (C58_boundary_ghost_refuted); if sinks of two processes take from one particle the last one wins (C58_two_sinks_refuted)."
  },
  {
   "property": "C59",
   "status": "partial",
   "theorems": [
    "C59_credits",
    "C59_conserved",
    "C59_end_step",
    "C59_shown",
    "C59_run",
    "C59_simple_limiter_refuted",
    "C59_between_refuted"
   ],
   "note": "Proved for all particles, neighbour lists, threads, schedules, solvers, limiters and kernels: each particle is credited exactly what it gains in its exchanges (C59_credits), totals change only by what goes into walls (C59_conserved), the end of a step turns credits into mass, velocity and energy (C59_end_step, C59_shown), and over any history without the simple limiter totals change only by walls, forces and cooling (C59_run). Refuted: the 'simple' limiter drops part of one particle's credit when it wakes it (C59_simple_limiter_refuted); masses shown in the middle of a step do not add up (C59_between_refuted)."
  },
  {
   "property": "C60",
   "status": "partial",
   "theorems": [
    "C60_exchange",
    "C60_exchange_viscous",
    "C60_rdmdt",
    "C60_rdmdt_refuted"
   ],
   "note": "Proved for HLLC in all modes, any equation of state, with and without viscosity: credits and rates do not depend on which particle computes (C60_exchange, C60_exchange_viscous). Refuted for rdmdt: the neighbour gets the wrong sign (C60_rdmdt, C60_rdmdt_refuted)."
  },
  {
   "property": "C61",
   "status": "partial",
   "theorems": [
    "C61_moving",
    "C61_viscous",
    "C61_stress",
    "C61_rigid",
    "C61_viscous_refuted"
   ],
   "note": "Proved without viscosity (C61_moving). With viscosity the energy flux uses the velocity in the frame of the face; the theorem gives the exact error, the work of the viscous force over the motion of the whole (C61_viscous), and a witness shows it is not zero (C61_viscous_refuted). Static particles are not Galilean and excluded."
  },
  {
   "property": "C62",
   "status": "partial",
   "theorems": [
    "C62_consistent",
    "C62_waves",
    "C62_contact_jump",
    "C62_contact",
    "C62_sides",
    "C62_zero_mass_flux",
    "C62_two_waves",
    "C62_zero_mass_flux_refuted"
   ],
   "note": "Proved for all states: consistency, three waves obeying the jump conditions, contacts and shear exact, exchange of sides; zero mass flux when the contact lies between the outer waves (C62_zero_mass_flux). Refuted without that condition: for gamma=21/20 the contact can be faster than the outer wave and the energy flux is wrong (C62_zero_mass_flux_refuted)."
  },
  {
   "property": "C63",
   "status": "partial",
   "theorems": [
    "C63_taken",
    "C63_end",
    "C63_middle",
    "C63_last",
    "C63_heated_refuted",
    "C63_reappears_refuted"
   ],
   "note": "Proved: the content of the particle is lowered by exactly the mass taken and its momentum (C63_taken), at the end of the step the mass is gone and the velocity kept (C63_end, C63_taken). Refuted: the energy is not taken, so the rest is heated (C63_heated_refuted, exact amount in C63_end); in the middle of a step the mass shown is whole again at the next prediction (C63_middle), so a sink on shorter steps can take more than there is and the particle ends with negative mass (C63_reappears_refuted)."
  },
  {
   "property": "C64",
   "status": "partial",
   "theorems": [
    "C64_end",
    "C64_constant_force",
    "C64_middle",
    "C64_middle_refuted",
    "C64_changing_force_refuted"
   ],
   "note": "Proved: velocities are exact for the mean acceleration and constant forces do not heat at the end of a step (C64_end, C64_constant_force). Refuted: in the middle of a step the temperature shown is too high by t(dt-t)a^2/2 since part.dt is used for dt (C64_middle, C64_middle_refuted), and a changing force heats by dt^2/8 times the square of its change per mass (C64_end, C64_changing_force_refuted)."
  },
  {
   "property": "C65",
   "status": "partial",
   "theorems": [
    "C65_density",
    "C65_found",
    "C65_ends",
    "C65_cell",
    "C65_all",
    "C65_clipped_refuted",
    "C65_stuck_refuted"
   ],
   "note": "Proved: whatever is accepted has the density smoothed over a length that agrees with the stored one and with the one belonging to the density to the tolerance, or is at a limit, or cannot be bisected further (C65_density, C65_cell, C65_all); if a fitting length exists between the limits the iteration does not give up (C65_found, exact midpoints); the enlarging of neighbour lists ends (C65_ends). Refuted with sinks present: a length may be set to the lower limit together with a density formed with another length although a fitting length exists (C65_clipped_refuted); particles of a cell whose lengths are all below the limit are left without a density (C65_stuck_refuted)."
  },
  {
   "property": "C66",
   "status": "proved",
   "theorems": [
    "C66_rates"
   ],
   "note": "For particles not inside a sink whose length fits exactly; stars' terms with conservative_sph_star_gravity or no stars."
  },
  {
   "property": "C67",
   "status": "partial",
   "theorems": [
    "C67_deepest",
    "C67_near",
    "C67_refuted"
   ],
   "note": "Proved for the meshless scheme and the Saitoh and Makino scheme (C67_deepest) and for grad-h SPH if all listed neighbours are within range (C67_near). Refuted for grad-h SPH: each neighbour is judged by the distance of the one before it in the list, so marks are both set and missed wrongly (C67_refuted)."
  },
  {
   "property": "C68",
   "status": "partial",
   "theorems": [
    "C68_density",
    "C68_settled",
    "C68_zeta",
    "C68_cycle_refuted",
    "C68_tolerance_refuted",
    "C68_zeta_refuted",
    "C68_omega_refuted"
   ],
   "note": "Proved: what is accepted (C68_density), and that a length fitting at the start gives the right values (C68_settled). Refuted: the test of convergence uses the length before the iteration, so two lengths leading to each other are accepted with half the density (C68_cycle_refuted); the tolerance is an absolute length (C68_tolerance_refuted); zeta is always zero (C68_zeta, C68_zeta_refuted) and 1/Omega depends on its old value (C68_omega_refuted)."
  },
  {
   "property": "C69",
   "status": "partial",
   "theorems": [
    "C69_tvd",
    "C69_scalar",
    "C69_springel",
    "C69_gizmo",
    "C69_positive",
    "C69_linear",
    "C69_moving",
    "C69_scalar_linear_refuted",
    "C69_gizmo_moving_refuted"
   ],
   "note": "Bounds, positivity, exactness for linear fields (null, tvdscalar, springel2009, and the pair limiter of gizmo) and independence of the observer (all but gizmo) are proved. The full statement is false: the scalar limiter, and with it gizmo, diminishes the slope of a linear field (C69_scalar_linear_refuted); the slopes of gizmo depend on the velocity of the observer (C69_gizmo_moving_refuted). Positivity is of the values extrapolated in space; the half step in time is floored by the code."
  },
  {
   "property": "C70",
   "status": "partial",
   "theorems": [
    "C70_linear",
    "C70_uniform",
    "C70_inverse",
    "C70_flat",
    "C70_even",
    "C70_moving",
    "C70_bad_refuted"
   ],
   "note": "Proved for particles not marked as having bad gradients; the gradients used otherwise are not exact for linear fields (C70_bad_refuted)."
  },
  {
   "property": "C71",
   "status": "partial",
   "theorems": [
    "C71_newton",
    "C71_jerk",
    "C71_soft",
    "C71_soft_jerk",
    "C71_soft_jerk_2d_refuted",
    "C71_startup",
    "C71_hermite6_two",
    "C71_hermite6_refuted",
    "C71_momentum",
    "C71_startup_momentum",
    "C71_torque",
    "C71_energy",
    "C71_soft_energy"
   ],
   "note": "Proved for every number of stars: unsoftened and softened accelerations are the sums of Newton's or the kernel's attraction and the gradient of the reported potential; jerks are time derivatives (softened: in three dimensions); start-up second and third derivatives; sixth-order second derivative for two stars; total force, torque and power vanish or match. Refuted: the sixth-order second derivative with three stars (assigned, not summed, NbodyHermite6TS.cpp:167) and the softened jerk in two dimensions. Missing: softened leapfrog (adds a small number to the distance)."
  },
  {
   "property": "C72",
   "status": "partial",
   "theorems": [
    "C72_com",
    "C72_drift_refuted",
    "C72_timestep",
    "C72_soft6_step",
    "C72_leapfrog",
    "C72_hermite4",
    "C72_hermite4ts",
    "C72_hermite6",
    "C72_soft6_low",
    "C72_leapfrog_reversible",
    "C72_ts_reversible"
   ],
   "note": "Proved for runs of any length of the main loop with one level: momentum and centre of mass for all schemes (sixth order: softened or at most two stars), error of one step of every scheme in terms of the derivatives of the true motion and of the errors of the forces, the time-step criterion, reversibility of the leapfrog and of converged time-symmetric steps. Refuted: centre of mass of three stars with the sixth-order scheme. Also shown: positions of hermite4ts are one order worse, softened sixth order has third-order errors in velocity and ignores nbody_mult. Missing: block time steps, errors accumulated over many steps."
  },
  {
   "property": "C73",
   "status": "partial",
   "theorems": [
    "C73_totals",
    "C73_frame",
    "C73_collate",
    "C73_collate_refuted",
    "C73_plummer",
    "C73_jerk",
    "C73_energy",
    "C73_soft_energy",
    "C73_vertical_refuted",
    "C73_gas_refuted"
   ],
   "note": "totals, centre-of-mass frame, MPI collection, Plummer forces and jerks and conservation of the reported energy for all inputs; refuted: dead particles of other processes are not counted, VerticalPotential lacks the factor two, gas without self-gravity ignores external potentials in the energy"
  },
  {
   "property": "C74",
   "status": "partial",
   "theorems": [
    "C74_tree",
    "C74_nearest",
    "C74_tree_refuted",
    "C74_partition",
    "C74_momentum",
    "C74_systems",
    "C74_orbits",
    "C74_find",
    "C74_found",
    "C74_eccentricity",
    "C74_types_refuted"
   ],
   "note": "proved as stated except: stars whose squared distances are all at least 9.9e20 make the tree loop run for ever (C74_tree_refuted), and a hierarchy of four stars made of a star and a triple is labelled a triple (C74_types_refuted); the positive theorems exclude the first by hypothesis and cover the labels binary and quadruple"
  },
  {
   "property": "C75",
   "status": "partial",
   "theorems": [
    "C75_mean",
    "C75_stable",
    "C75_momentum",
    "C75_torque",
    "C75_energy",
    "C75_energy_refuted",
    "C75_startup_refuted",
    "C75_mfv_position",
    "C75_mfv_position_refuted",
    "C75_copy",
    "C75_copy_refuted",
    "C75_test",
    "C75_enlarge",
    "C75_converges",
    "C75_uniform",
    "C75_tolerance_refuted",
    "C75_lp12_refuted",
    "C75_start",
    "C75_start_test",
    "C75_laws",
    "C75_only",
    "C75_signal"
   ],
   "note": "Proved: mean drag equals the exact damping (C75_mean, C75_test), no overshoot (C75_stable), momentum, angular momentum and energy (C75_momentum, C75_torque, C75_energy), interpolation (C75_copy, C75_test, C75_enlarge, C75_uniform), signals for time steps, laws, start velocities. Refuted parts: heating NaN when only gas of zero kernel weight is seen; heating counted twice at start-up; meshless position wrong unless the mass is one; dead particles corrupt the neighbour copies; absolute tolerance of the smoothing length; LP2012 law unusable with test particles."
  },
  {
   "property": "C76",
   "status": "partial",
   "theorems": [
    "C76_energy",
    "C76_polytrope",
    "C76_temperature",
    "C76_sound",
    "C76_sound_adiabatic",
    "C76_sound_low",
    "C76_entropy",
    "C76_face",
    "C76_again",
    "C76_barotropic",
    "C76_locally",
    "C76_disc",
    "C76_ionised",
    "C76_mixture",
    "C76_select",
    "C76_select_refuted",
    "C76_polytrope_refuted",
    "C76_temperature_refuted",
    "C76_sound_refuted",
    "C76_again_refuted",
    "C76_mixture_refuted",
    "C76_ionised_refuted"
   ],
   "note": "Proved for every equation of state but the tabulated one: positivity and p=(gamma-1) rho u, ideal-gas temperature, sound speed as derivative of pressure (isothermal kinds, and at constant entropy), entropic function, states at faces, repetition, barotropic and disc laws, ionised and mixed gas, choice by name. Refuted by witnesses: polytrope with default parameters, adiabatic temperature for mu_bar other than one, sound speed of barotropic, polytropic and mixed gas (bounded by sqrt(gamma) instead), repeated mixing with an energy equation, temperature of ionised gas, two names with ionising stars."
  },
  {
   "property": "C77",
   "status": "partial",
   "theorems": [
    "C77_closest",
    "C77_read",
    "C77_read_refuted",
    "C77_gas",
    "C77_row",
    "C77_densest",
    "C77_inverse",
    "C77_roundtrip",
    "C77_row_refuted",
    "C77_roundtrip_refuted",
    "C77_sink",
    "C77_ambient",
    "C77_disc",
    "C77_binary",
    "C77_few",
    "C77_binary_refuted",
    "C77_relax",
    "C77_relax_far",
    "C77_relax_between",
    "C77_relax_start",
    "C77_relax_refuted"
   ],
   "note": "Proved: nearest entry, reading, gas relations of the entry chosen, right row for one row or rows below both values, energy of a pressure with gamma constant along the row, fluxes of stars, one central star, exact relaxation, bounds. Refuted: the row is chosen with the density although densities are stored as logarithms, energy of a pressure with varying gamma, two central stars heating a disc, files longer than announced, relaxation times below 1e-20."
  },
  {
   "property": "C78",
   "status": "partial",
   "theorems": [
    "C78_heating",
    "C78_heating_refuted",
    "C78_cooling",
    "C78_cooling_refuted",
    "C78_floor",
    "C78_slope",
    "C78_implicit",
    "C78_top_refuted",
    "C78_entry_refuted",
    "C78_weights_refuted",
    "C78_end",
    "C78_start_refuted",
    "C78_clip"
   ],
   "note": "Proved for rows of constant opacity (and, for the implicit update, constant gamma and molecular weight): heating, cooling next to the lowest temperature, floor, implicit solution to the tolerance with enough iterations; for all tables the initial rate of relaxation; the state at the end of a step and the clip. Refuted: cooling to any higher equilibrium and equilibria beyond the table leave the array, an equilibrium exactly on an entry is missed, interpolation weights reversed, predicted momentum at the start of a step. Rows with varying opacity are covered only by the refutations."
  },
  {
   "property": "C79",
   "status": "partial",
   "theorems": [
    "C79_exists",
    "C79_star",
    "C79_rarefactions",
    "C79_shock_guess",
    "C79_solution",
    "C79_shocktube",
    "C79_flux",
    "C79_upwind",
    "C79_same",
    "C79_zmf",
    "C79_zmf_refuted",
    "C79_vacuum",
    "C79_vacuum_refuted"
   ],
   "note": "Existence, uniqueness, the iteration, the sampled solution, fluxes in one to three dimensions are proved for all states; the full statement is false: C79_zmf_refuted (finite-mass faces take the state of the old face's ray) and C79_vacuum_refuted (no flux although supersonic gas crosses the face). Between shocks the sampled profile is proved to be the solution for the exact pressure and velocity; the computed ones are within the proved bounds of these."
  },
  {
   "property": "C80",
   "status": "partial",
   "theorems": [
    "C80_never_more",
    "C80_conservative",
    "C80_export",
    "C80_timestep",
    "C80_unlimited_refuted",
    "C80_plane_refuted",
    "C80_periodic_refuted",
    "C80_octree_refuted"
   ],
   "note": "In one dimension and an open domain the limit is proved for every tree, with the export test of pruned trees; in any dimension only signal speeds change, they never fall and never exceed what some particle asks for; the time step is the smallest criterion. Refuted: in the plane (overlapping extents counted as distance), in a periodic domain, with the octal tree, and without hydrodynamics and self-gravity. Not proved: a sufficient condition in two and three dimensions; mirror images."
  },
  {
   "property": "C81",
   "status": "partial",
   "theorems": [
    "C81_names",
    "C81_gigajoule_refuted",
    "C81_accepted",
    "C81_raise",
    "C81_code_units",
    "C81_luminosity_refuted",
    "C81_conversions",
    "C81_restart",
    "C81_snapshot",
    "C81_snapshot_refuted",
    "C81_cgs",
    "C81_pressure_refuted",
    "C81_sink",
    "C81_sink_refuted",
    "C81_laws",
    "C81_labels",
    "C81_force_refuted",
    "C81_magnetic_refuted",
    "C81_arrays",
    "C81_potential_refuted",
    "C81_dimensionless"
   ],
   "note": "Proved for every parameter set: names (all but GJ), code units from one L, M, T with G=1 for all quantities but luminosity and the three electromagnetic ones, physical laws, conversions, cgs (all but pressure), labels, arrays (all but gpot), round trip, acceptance, dimensionless runs. Refuted with witnesses: GJ, luminosity, pressure in cgs, force labels, electromagnetic units, snapshot units ignored, potential array, sink density of the meshless code. Doubles are reals."
  },
  {
   "property": "C82",
   "status": "partial",
   "theorems": [
    "C82_sphere",
    "C82_mass",
    "C82_energy",
    "C82_radial",
    "C82_kinetic_refuted",
    "C82_momentum_refuted",
    "C82_masses_refuted",
    "C82_ghost_refuted",
    "C82_empty_refuted",
    "C82_kept",
    "C82_lost_refuted",
    "C82_memory",
    "C82_memory_refuted",
    "C82_single",
    "C82_random",
    "C82_table",
    "C82_last_refuted",
    "C82_rows_refuted",
    "C82_short_refuted",
    "C82_plane_refuted",
    "C82_delay_refuted"
   ],
   "note": "Mass, sphere, radial kick, energy shares (real neighbours of the mean mass), memory from five particles on, single, random and table drivers proved; witnesses that velocities are replaced, momentum changes, unequal masses and ghosts change the energy, empty spheres lose it, particles in mid-step lose kick and heat, and the table driver fails after the last entry, with wrong row counts and below three dimensions."
  },
  {
   "property": "C83",
   "status": "partial",
   "theorems": [
    "C83_slice",
    "C83_column",
    "C83_plane",
    "C83_bounds",
    "C83_order",
    "C83_centre_refuted",
    "C83_column_refuted",
    "C83_faint_refuted",
    "C83_line_refuted",
    "C83_table",
    "C83_lookup",
    "C83_line_of_sight"
   ],
   "note": "Slices, columns with equal smoothing lengths, planar images, bounds, order, the line-of-sight table and its look-up proved; witnesses that pixels show their corner instead of their centre, that columns weigh by one over the smoothing length, that faint pixels are not normalised, and that images of one-dimensional runs are blank."
  },
  {
   "property": "C84",
   "status": "partial",
   "theorems": [
    "C84_cubic",
    "C84_cubic_normalised",
    "C84_cubic_outside_refuted",
    "C84_hexagonal",
    "C84_hexagonal_touching",
    "C84_hexagonal_plane",
    "C84_hexagonal_outside_refuted",
    "C84_hexagonal_line_refuted",
    "C84_hexagonal_gap_refuted",
    "C84_cut",
    "C84_cut_ends",
    "C84_cut_hangs_refuted",
    "C84_cut_centre_refuted",
    "C84_sphere",
    "C84_random_box",
    "C84_evrard",
    "C84_evrard_refuted",
    "C84_r2",
    "C84_r2_centre_refuted",
    "C84_r2_plane_refuted"
   ],
   "note": "Proved: cubic lattices tile their box (normalised ones if the numbers fit the edges); the distance bound of hexagonal lattices in all dimensions, the twelve touching neighbours in space and their extent in the plane; everything said of CutSphere when no more points lie at the centre than are wanted (fewer than wanted up to one part in 10^8 of the radius); AddLatticeSphere for every lattice size; random boxes; the 1/r^2 sphere about the origin in space; the Evrard profile for radius 1. Refuted with witnesses: normalised lattices inside boxes that do not fit, hexagonal lattices inside the box in space (every size), centred in one dimension and filling the box when not normalised, CutSphere ending in general and about a centre other than the origin, the 1/r^2 sphere about another centre and in fewer dimensions, the Evrard profile for other radii."
  }
 ]
}