# Formal model of GANDALF: design

The subject is the C++ code in `/repo/src` (SPH, meshless finite volume and N-body
astrophysics code), read as text at the pinned commit; nothing was built or run.
`properties.jsonl` lists the properties, `rocq/` holds the Coq 8.16.1 development,
`MANIFEST.json` maps properties to theorem names, `seeded/LOG.jsonl` records the
experiments in which the model was deliberately broken.

## Layout of the development

* `M_*.v` - the model: computable definitions only, each with a comment citing the
  file and lines it transcribes and any simplification.
* `S_*.v` - small independent specifications, where a property needs vocabulary
  that is not in the standard library.
* `L_*.v` - lemmas and proofs.
* `P_*.v` - one file per topic containing the property theorems, each closed by
  `exact`, with `Print Assumptions`, and `Example`s showing that the
  hypotheses are met by concrete non-trivial cases.

## Modelling conventions

* Algorithms that only compare values (sorting, selection, box tests, tree walks) use
  `Z` (or `R` where arithmetic is needed) for the compared quantity.
* Real arithmetic (`FLOAT`/`DOUBLE`) is modelled by the real numbers `R` of the standard
  library; rounding is therefore not covered, except where a theorem says
  "double precision", in which case Flocq's binary64 rounding is used.
* Arrays are lists; a read or write outside the array is a distinct outcome
  (`None` / `UB`), never a default value.
* Loops become structural recursion or recursion on fuel; running out of fuel is a
  distinct outcome and the theorems exclude it.
* `assert` and `ExceptionHandler::raise` are distinct outcomes (`Raise`).
* Machine integers are unbounded (`Z`/`nat`) except for the random number generator, where
  the 64-bit wrap-around is explicit.

## Plan and result per property

"partial" means that the full statement is false of the code, or not proved; `MANIFEST.json` says which and names the theorems. A `_refuted` theorem exhibits a concrete input on which the modelled code breaks the statement.

| id | file | what is modelled | how it is proved | status |
|----|------|------------------|------------------|--------|
| C01 | `P_Sort` | the two insertion sorts, inner loop with shifting writes on arrays | loop invariants, `Permutation`, `StronglySorted`, stability by tagging entries with their position | proved |
| C02 | `P_QuickSelect` | `QuickSelect` on the id array with explicit bounds checks | invariants of the partition loop; measure right-left for termination | proved |
| C03 | `P_KDTree` | `ComputeTreeSize`, `CreateTreeStructure`, the skeleton of all walks | closed form of links by induction on depth; walk theorem for every open/skip oracle | proved |
| C04 | `P_KDTree` | `ComputeTreeSize`, `DivideTreeCell` recursion | induction on depth using C02 | proved |
| C05 | `P_Gather` | the four neighbour walks on an arbitrary linked cell array | generic walk theorem and geometry of bounding spheres over R | proved |
| C06 | `P_Gravity` | both gravity walks | generic walk theorem: visited leaves and accepted cells partition the particles | proved |
| C07 | `P_Oct` | the oct-tree division loop on linked list arrays, growth and stocking | loop invariant on segments of the lists; witnesses for overruns | partial |
| C08 | `P_Prune` | `CreatePrunedTreeForMpiNode`, `UpdateLeafCells` | simulation between the walk and an abstract opened tree, renumbering | proved |
| C09 | `P_Box` | the box functions over R | case analysis, `lra`; witness for equal edges | partial |
| C10 | `P_Periodic` | periodic/mirror functions over R, ghosts with a reallocation model | case analysis; uninitialised and dangling reads as explicit outcomes | proved |
| C11 | `P_Periodic` | periodic/mirror functions over R, ghosts with a reallocation model | case analysis; uninitialised and dangling reads as explicit outcomes | proved |
| C12 | `P_Periodic` | periodic/mirror functions over R, ghosts with a reallocation model | case analysis; uninitialised and dangling reads as explicit outcomes | partial |
| C13 | `P_Ghost` | periodic/mirror functions over R, ghosts with a reallocation model | case analysis; uninitialised and dangling reads as explicit outcomes | partial |
| C14 | `P_Neib` | `_first_appearance`, `TrimNeighbourLists`, `_EndSearch` | case analysis, induction on lists | proved |
| C15 | `P_Neib` | `_first_appearance`, `TrimNeighbourLists`, `_EndSearch` | case analysis, induction on lists | proved |
| C16 | `P_Block` | `ComputeBlockTimesteps`, integer clock, `CheckTimesteps`, `EndTimestep` | inductive invariant over arbitrary histories; runs as witnesses | partial |
| C17 | `P_Level` | `ComputeTimestepLevel` with the literal of the code | bounds on ln 2 by series | partial |
| C18 | `P_Block` | `ComputeBlockTimesteps`, integer clock, `CheckTimesteps`, `EndTimestep` | inductive invariant over arbitrary histories; runs as witnesses | partial |
| C19 | `P_Leapfrog` | KDK/DKD particle updates over R | algebra, induction over passes | proved |
| C20 | `P_Sink` | accretion loops over R; assignment phase with an arbitrary schedule | sums over lists; induction over schedules | partial |
| C21 | `P_Sink` | accretion loops over R; assignment phase with an arbitrary schedule | sums over lists; induction over schedules | proved |
| C22 | `P_SinkNew` | search for candidates and `CreateNewSinkParticle` | induction over candidates | partial |
| C23 | `P_Kernel` | kernel functions over R | derivatives and integrals via Coquelicot, `field`, `nra`; witnesses | proved |
| C24 | `P_Kernel` | kernel functions over R | derivatives and integrals via Coquelicot, `field`, `nra`; witnesses | partial |
| C25 | `P_Kernel` | kernel functions over R | derivatives and integrals via Coquelicot, `field`, `nra`; witnesses | partial |
| C26 | `P_Table` | table construction and index in binary64 and binary32 | Flocq, monotonicity of rounding | proved |
| C27 | `P_Force` | `ComputeSphHydroForces`, `ComputeSphHydroGravForces` and the loops around them over R | double sums over mutual links, antisymmetry, signs; witnesses | proved |
| C28 | `P_Force` | `ComputeSphHydroForces`, `ComputeSphHydroGravForces` and the loops around them over R | double sums over mutual links, antisymmetry, signs; witnesses | proved |
| C29 | `P_Force` | `ComputeSphHydroForces`, `ComputeSphHydroGravForces` and the loops around them over R | double sums over mutual links, antisymmetry, signs; witnesses | partial |
| C30 | `P_Params` | parser, parameter table and recording on strings | string lemmas; decimal representation with Flocq | partial |
| C31 | `P_Rand` | xorshift on N modulo 2^64 | xor-shift maps inverted; order of the linear map by matrix powers over GF(2) | partial |
| C32 | `P_Output` | `Output`, `RestartSnapshot`, set-up, as operations on a file system that may crash between any two items | induction over histories and crash points | partial |
| C33 | `P_Output` | `Output`, `RestartSnapshot`, set-up, as operations on a file system that may crash between any two items | induction over histories and crash points | partial |
| C34 | `P_Util` | flag words on N | bitwise lemmas | proved |
| C35 | `P_Util` | the two loops of the duplicate check | induction; witness | partial |
| C36 | `P_Util` | matrix and rotation helpers over R | algebra | proved |
| C37 | `P_Util` | particle storage: growth, compaction | array invariants | partial |
| C38 | `P_Util` | particle storage: growth, compaction | array invariants | proved |
| C39 | `P_Util` | packing and unpacking of byte buffers | induction | proved |
| C40 | `P_Util` | table look-up | contract of lower_bound | proved |
| C41 | `P_Stock` | bottom-up `StockTree`, `StockCellProperties` | induction on the tree | proved |
| C42 | `P_Gravity` | star gravity walk, caller with retry | generic walk theorem; witness for an endless retry | partial |
| C43 | `P_Block` | `ComputeBlockTimesteps`, integer clock, `CheckTimesteps`, `EndTimestep` | inductive invariant over arbitrary histories; runs as witnesses | partial |
| C44 | `P_Force` | `ComputeSphHydroForces`, `ComputeSphHydroGravForces` and the loops around them over R | double sums over mutual links, antisymmetry, signs; witnesses | proved |
| C45 | `P_Force` | `ComputeSphHydroForces`, `ComputeSphHydroGravForces` and the loops around them over R | double sums over mutual links, antisymmetry, signs; witnesses | partial |
| C46 | `P_Force` | `ComputeSphHydroForces`, `ComputeSphHydroGravForces` and the loops around them over R | double sums over mutual links, antisymmetry, signs; witnesses | partial |
| C47 | `P_Force` | `ComputeSphHydroForces`, `ComputeSphHydroGravForces` and the loops around them over R | double sums over mutual links, antisymmetry, signs; witnesses | partial |
| C48 | `P_SinkNew` | search for candidates and `CreateNewSinkParticle` | induction over candidates | partial |
| C49 | `P_Sink` | accretion loops over R; assignment phase with an arbitrary schedule | sums over lists; induction over schedules | partial |
| C50 | `P_GatherGhost` | point search over two trees with one buffer | composition of C05; witness | partial |
| C51 | `P_Prune` | size guess for pruned trees | induction on depth; witness | partial |
| C52 | `P_Export` | walks of pruned trees and the loops over active cells and processes | generic walk theorem with periodic geometry over R | proved |
| C53 | `P_Export` | walks of pruned trees and the loops over active cells and processes | generic walk theorem with periodic geometry over R | proved |
| C54 | `P_League` | calendar of exchanges and the blocking exchange as interleaved processes | arithmetic of the round robin; progress and confluence for every schedule and buffering | proved |
| C55 | `P_Balance` | load balancing: search, packing, exchange, unpacking on all processes | composition of C54 with list transfer lemmas | partial |
| C56 | `P_Balance` | `FindLoadBalancingDivision`, update of the tree of domains | loop invariants, tiling by induction on the tree | partial |
| C57 | `P_Sync` | `UpdateSinksAfterAccretion` on all processes with the collective calls | buffer layout lemmas; witnesses | partial |
| C58 | `P_Return` | exchange of ghosts and `DoUpdateMpiGhostParents` on all processes | matrix lemmas for MPI_Alltoallv, chains of parents; witnesses | partial |
| C59 | `P_Mfv` | flux loop with thread buffers, prediction, end of step, step limiter; solver, limiter and kernel are parameters | sums over exchanges; induction over threads, cells and histories; witnesses with the M4 kernel and HLLC | partial |
| C60 | `P_Mfv` | one exchange with HLLC and the viscous flux | antisymmetry of the face area, symmetry of HLLC under exchange of sides; witness for rdmdt | partial |
| C61 | `P_Mfv` | one exchange with HLLC and the viscous flux | Galilean change of the lab-frame flux; witness with viscosity | partial |
| C62 | `P_Riemann` | HLLC solver of RiemannSolver.h | Rankine-Hugoniot relations of the star states; witness with gamma=21/20 | partial |
| C63 | `P_Mfv2` | `AccreteMassFromParticle` with prediction and end of step | algebra of the conserved quantities; witnesses | partial |
| C64 | `P_Mfv2` | prediction and end of step under forces only | exact heating as a sum of squares; witnesses | partial |
| C65 | `P_Dens` | `ComputeH` of grad-h SPH (three-phase iteration, midpoints rounded arbitrarily), the loop over hmax of a cell | invariants of the iteration; monotone and Lipschitz sum of kernels for bisection; witnesses in one dimension | partial |
| C66 | `P_Dens` | 1/Omega and zeta set by `ComputeH`, with stars | differentiation of implicitly tied density and length (Coquelicot) | proved |
| C67 | `P_Dens` | the marks potmin of three schemes | loops over neighbour lists; witnesses | partial |
| C68 | `P_Dens` | `ComputeH` of the meshless scheme | invariants of the iteration; witnesses with interval bounds | partial |
| C69 | `P_Grad` | all slope limiters, cell and pair part | bounds kept by the loops over neighbours; witnesses on a line | partial |
| C70 | `P_Grad` | `ComputeGradients` of the meshless scheme with its fallback | sums over neighbours as matrices, kernel of a singular symmetric matrix; witness in a plane | partial |
| C71 | `P_Hermite` | direct sums of the four star integrators, with start-up derivatives | each pair term is the derivative of the one before; sums over pairs are antisymmetric; witnesses with three stars and in a plane | partial |
| C72 | `P_Hermite2` | main loop of star-only runs with one level: advance, iterate forces and corrections, time step | totals as invariants of the loop; Taylor remainders; corrections invert under reversal; witness with three stars | partial |
| C73 | `P_Diag` | CalculateDiagnostics, SetComFrame, CollateDiagnosticsData and the external potentials | loops as sums over lists; shifts of sums; gradients and time derivatives with powers of the distance; witnesses: falling star, dead particles on two processes | partial |
| C74 | `P_NNTree` | CreateNbodySystemTree, BuildSubSystems, ComputeNewBinaryOrbit and FindBinarySystems of NbodySystemTree | every round joins at least one mutually nearest pair; invariant of the node loop: lists of pending nodes and the main list partition the stars; Lagrange identity for the eccentricity; witnesses: stars too far apart, star around a triple | partial |
| C75 | `P_Dust` | the drag of Dust.cpp for test particles (copy of neighbours, smoothing length, interpolation) and two fluids (pair forces, heating), the update of SPH and meshless particles, the drag laws and the calls at start-up | solution of the damping equation is unique, Taylor bounds of exp; pair terms antisymmetric under exchange and opposite displacement; double sums; invariant of the h iteration; witnesses: kernel weight zero, dead particles, mass other than one, absolute tolerance, start-up | partial |
| C76 | `P_Eos` | every class of equation of state but the tabulated one, their choice by name, the thermal properties of SPH and meshless particles and the states at a face | real powers and their derivatives; minimum over stars as a fold; witnesses: exchanged exponents of the polytrope, temperature without mu_bar, sound speed of barotropic and mixed gas, repeated mixing, temperature of ionised gas, names accepted and then refused | partial |
| C77 | `P_Radws` | OpacityTable (reading, look-ups, energy of a pressure), RadwsEOS, RadiativeFB and the relaxation of EnergyRadws | invariants of the binary searches and of the reading loop; uniqueness of the solution of the relaxation equation; witnesses: row looked up with the density instead of its logarithm, gamma that varies along a row, two central stars, relaxation times below 1e-20 | partial |
| C78 | `P_Cool` | EnergyFindEqui, EnergyFindEquiTemp, ImplicitEnergyUpdate and the predicted states of the meshless EnergyRadws | bisection invariants on rows of constant opacity, with the number of steps from the width; refutations general in the table: cooling towards an equilibrium above the entry after the lowest temperature leaves the table | partial |
| C79 | `P_Exact` | ComputeStarRegion, SampleExactSolution, ComputeFluxes, the rotations and the shock tube of ExactRiemannSolver | concavity of the wave functions: Newton never overshoots and needs at most 98 steps over 120 decades; Rankine and Hugoniot from the mass flux of the shock, entropy from one increasing function, fans by differentiation, the right side by a mirror; atan2 from its tangent; witnesses: supersonic face of the finite-mass scheme, supersonic gas ahead of a vacuum | partial |
| C80 | `P_Distant` | ComputeSignalVelocityFromDistantInteractions on stocked and pruned trees with the ghost finder, MfvIntegration::Timestep, the velocity box of the octal tree | the walk as a fold over the tree with the invariant that no skipped particle asks for more than the present speed; in one dimension the box bound is proved to dominate every pair; witnesses: two cells side by side in the plane, gas leaving a periodic domain, the octal tree | partial |
| C81 | `P_Units` | all of SimUnits.cpp but the LaTeX labels: SIUnit tables, SetupUnits, the conversions; ExtractArray, the units of a snapshot header, the sink density of both codes | an independent table of names as products of base units with dimensions; inversion of SetupUnits to one length, mass and time; then field arithmetic per quantity; witnesses for gigajoule, luminosity, pressure in cgs, force, magnetic units, potential, units of a snapshot and the sink density of the meshless code | partial |
| C82 | `P_Supernova` | SupernovaInjection with AddRandomSphere and CreateNewParticle, the single, random and table drivers, and the pass of the leapfrog around it | sums over the particle list before and after, with the neighbour list as a duplicate-free list of indices; induction over the calls for the drivers; the velocity replaced, unequal masses, ghosts, empty spheres, particles in mid-step, small arrays and the end of the table as witnesses | partial |
| C83 | `P_Render` | both functions of Render.cpp with their pixel loops on checked arrays, the line-of-sight table and its look-up | injectivity of the pixel index and the limits from truncation give the sum over all particles; left sums of a decreasing function bound the table by the integral (Coquelicot); witnesses for the corner instead of the centre, the weight of columns, faint pixels and one-dimensional runs | partial |
| C84 | `P_Lattice` | the lattice loops as writes into a checked flat array, the bisection and in-place packing of CutSphere, AddLatticeSphere with its rotation, AddRandomBox, Addr2Sphere, the Evrard stretching | the particle number is a mixed-radix number, so that writes never collide; squared distances of the hexagonal lattice are integers over three; a threshold radius bounds the bisection; witnesses for particles outside, lattices off centre, gaps, a search without end, the uncentred scaling and the radius counted twice | partial |

## Trusted base

* The Coq 8.16.1 kernel. No kernel check is switched off; there are no own axioms, no admitted proofs, no plugins,
  no functors or module types.
* The standard-library axioms that `Print Assumptions` lists for each theorem (below). Every `P_*.v` file prints them
  when it is compiled. No axiom comes from any other library; Flocq (C26, C30) and Coquelicot (kernels) are used only for definitions and lemmas.
* The reading of the C++ text as Gallina definitions, whose comments cite file and lines. In particular:
  reals instead of floating point numbers (except C26, C30), unbounded integers (except C31, C34), the behaviour of the C++ library
  (`std::sort`, `std::lower_bound`, `std::map`, streams) and of MPI calls by their documented contracts, and one
  sequential order of execution except where a theorem quantifies over schedules (C20, C21, C49, C54, C55).

Axioms: **A** = `ClassicalDedekindReals.sig_forall_dec`, **B** = `ClassicalDedekindReals.sig_not_dec`, **F** = `FunctionalExtensionality.functional_extensionality_dep`, **K** = `Classical_Prop.classic`.

* **none (closed under the global context)**: `C01_InsertionSortIds_stable`, `C01_InsertionSort_sorts`, `C02_QuickSelect_partitions`, `C03_CreateTreeStructure`, `C03_walk_is_traversal`, `C04_BuildTree`, `C08_partition`, `C08_update`, `C10_finder_accepts`, `C14_mirror_always`, `C14_one_of_two`, `C14_sweep`, `C29_never_stored`, `C30_default_keys`, `C31_never_zero`, `C31_no_shorter_period`, `C31_output_bijective`, `C31_period`, `C31_state_bijective`, `C34_flags_composite`, `C34_flags_history`, `C34_flags_named`, `C34_flags_tables`, `C35_VerifyUniqueIds_exact`, `C35_VerifyUniqueIds_partial`, `C35_VerifyUniqueIds_refuted`, `C37_create_partial`, `C37_create_refuted`, `C37_ghosts`, `C38_delete_dead`, `C39_displs`, `C39_displs_blocks`, `C39_isPowerOfTwo`, `C39_pack_unpack`, `C39_unpack_overrun`, `C49_same_thread_partial`, `C54_calendar`, `C54_constructor_check_passes_all`, `C54_exchange`, `C54_three_processes`, `C58_established`, `C58_ghosts`, `C58_refresh`, `C76_select`, `C76_select_refuted`, `C82_rows_refuted`

* **A**: `C80_unlimited_refuted`, `C82_memory_refuted`

* **A B F**: `C05_gather_cell`, `C05_gather_point`, `C05_neighbour_list`, `C05_neighbour_manager`, `C06_mass`, `C06_near_complete`, `C06_once`, `C06_opening`, `C06_opening_exact`, `C08_opening`, `C10_GhostFinder_NearestPeriodicVector`, `C10_NearestPeriodicVector`, `C13_ConstructAllGhosts`, `C13_ScatterGather_partial`, `C15_Trim`, `C15_gravity_count`, `C15_in_range_complete`, `C22_creation_partial`, `C22_densest`, `C22_fixed_number`, `C22_invh_partial`, `C22_invh_refuted`, `C22_mmax`, `C22_requested_number_refuted`, `C24_quintic_zeta_refuted`, `C25_gaussian_omega_refuted`, `C27_angular_momentum`, `C27_angular_momentum_with_gravity`, `C27_energy`, `C27_energy_with_gravity`, `C27_momentum`, `C27_momentum_gravity`, `C27_momentum_with_gravity`, `C27_open_domain`, `C27_stored`, `C27_stored_with_gravity`, `C28_heats`, `C28_only_approaching`, `C28_opposes`, `C29_accumulates`, `C29_accumulates_refuted`, `C29_not_stored_refuted`, `C29_rate_partial`, `C29_sign_refuted`, `C36_EulerArray`, `C36_Euler_det`, `C36_Euler_dot`, `C36_Euler_norm`, `C41_build_and_stock`, `C42_star_lists`, `C42_star_retry_ends`, `C42_star_retry_never_ends`, `C42_star_retry_refuted`, `C44_hot_to_cold`, `C45_potential`, `C45_self_twice_refuted`, `C46_gravity_partial`, `C46_gravity_refuted`, `C46_hydro`, `C47_price2008_refuted`, `C47_units_partial`, `C48_fixed_radius_refuted`, `C48_kernel_radius_refuted`, `C48_new_sinks_apart_partial`, `C50_cases_partial`, `C50_complete_partial`, `C50_no_overrun_refuted`, `C52_exports`, `C52_overlap`, `C52_pruned_trees`, `C53_distant`, `C53_exports`, `C55_outermost_refuted`, `C55_transfer`, `C59_between_refuted`, `C59_conserved`, `C59_credits`, `C59_run`, `C59_simple_limiter_refuted`, `C60_exchange`, `C60_exchange_viscous`, `C60_rdmdt`, `C60_rdmdt_refuted`, `C61_moving`, `C61_viscous`, `C61_viscous_refuted`, `C62_consistent`, `C62_contact`, `C62_sides`, `C62_two_waves`, `C62_waves`, `C62_zero_mass_flux`, `C62_zero_mass_flux_refuted`, `C65_all`, `C67_deepest`, `C69_gizmo`, `C69_gizmo_moving_refuted`, `C69_linear`, `C69_moving`, `C69_positive`, `C69_scalar`, `C69_scalar_linear_refuted`, `C70_bad_refuted`, `C70_even`, `C70_flat`, `C70_inverse`, `C70_linear`, `C70_moving`, `C70_uniform`, `C71_momentum`, `C71_startup_momentum`, `C71_torque`, `C72_com`, `C72_drift_refuted`, `C72_leapfrog_reversible`, `C72_soft6_step`, `C72_timestep`, `C72_ts_reversible`, `C74_eccentricity`, `C74_find`, `C74_found`, `C74_momentum`, `C74_nearest`, `C74_orbits`, `C74_partition`, `C74_systems`, `C74_tree`, `C74_tree_refuted`, `C74_types_refuted`, `C75_energy`, `C75_energy_refuted`, `C75_momentum`, `C75_only`, `C75_signal`, `C75_startup_refuted`, `C75_torque`, `C77_relax_start`, `C80_conservative`, `C80_export`, `C80_never_more`, `C80_octree_refuted`, `C80_periodic_refuted`, `C80_plane_refuted`, `C80_timestep`, `C82_empty_refuted`, `C82_energy`, `C82_ghost_refuted`, `C82_kept`, `C82_kinetic_refuted`, `C82_lost_refuted`, `C82_mass`, `C82_masses_refuted`, `C82_memory`, `C82_momentum_refuted`, `C82_radial`, `C82_sphere`, `C83_bounds`, `C83_centre_refuted`, `C83_column`, `C83_column_refuted`, `C83_faint_refuted`, `C83_line_refuted`, `C83_order`, `C83_plane`, `C83_slice`, `C84_cut`, `C84_cut_centre_refuted`, `C84_cut_ends`, `C84_cut_hangs_refuted`, `C84_evrard`, `C84_evrard_refuted`, `C84_hexagonal`, `C84_hexagonal_gap_refuted`, `C84_hexagonal_line_refuted`, `C84_hexagonal_outside_refuted`, `C84_hexagonal_plane`, `C84_hexagonal_touching`, `C84_sphere`

* **A B F K**: `C16_DKD_refuted`, `C16_finish_together`, `C16_in_step`, `C16_next_levels`, `C16_not_longer_than_requested`, `C16_resync_levels`, `C16_stars_finest`, `C16_time`, `C17_above_refuted`, `C17_longer_refuted`, `C17_not_too_short_partial`, `C17_step_not_longer_partial`, `C17_strict_refuted`, `C18_DKD_refuted`, `C18_level_diff_zero_refuted`, `C18_limiter`, `C20_accretion_conserves_partial`, `C20_ghost_refuted`, `C21_only_own_particles`, `C23_m4_density`, `C23_m4_drag_normalised`, `C23_m4_gauss`, `C23_m4_gravity`, `C23_m4_normalised`, `C24_quintic_density`, `C24_quintic_gravity_continuous_refuted`, `C24_quintic_gravity_partial`, `C24_quintic_normalised`, `C25_gaussian_continuous_refuted`, `C25_gaussian_normalised_refuted`, `C25_gaussian_partial`, `C26_resolution_refuted`, `C26_table`, `C26_table_gravity`, `C26_table_sqd`, `C30_SetParam_int`, `C30_accepted`, `C30_assign_partial`, `C30_bare_name_refuted`, `C30_colon_refuted`, `C30_double_refuted`, `C30_ignored_partial`, `C30_lines`, `C30_record_close`, `C30_record_read_partial`, `C30_record_read_refuted`, `C31_gaussrand_refuted`, `C43_integration_step_refuted`, `C43_limiter_refuted`, `C43_new_level_refuted`, `C43_single_timestep_refuted`, `C43_stored_dt_partial`, `C49_all_swallowed_partial`, `C49_buffer_refuted`, `C49_light_particles_refuted`, `C49_overlap_refuted`, `C49_schedule_independent_partial`, `C57_crossing_refuted`, `C65_cell`, `C65_clipped_refuted`, `C65_density`, `C65_ends`, `C65_found`, `C65_stuck_refuted`, `C66_rates`, `C67_near`, `C67_refuted`, `C68_cycle_refuted`, `C68_density`, `C68_omega_refuted`, `C68_settled`, `C68_tolerance_refuted`, `C68_zeta`, `C68_zeta_refuted`, `C71_energy`, `C71_hermite6_refuted`, `C71_hermite6_two`, `C71_jerk`, `C71_newton`, `C71_soft`, `C71_soft_energy`, `C71_soft_jerk`, `C71_soft_jerk_2d_refuted`, `C71_startup`, `C72_hermite4`, `C72_hermite4ts`, `C72_hermite6`, `C72_leapfrog`, `C72_soft6_low`, `C73_energy`, `C73_gas_refuted`, `C73_jerk`, `C73_plummer`, `C73_soft_energy`, `C73_vertical_refuted`, `C75_converges`, `C75_enlarge`, `C75_lp12_refuted`, `C75_mean`, `C75_stable`, `C75_test`, `C75_tolerance_refuted`, `C76_again`, `C76_again_refuted`, `C76_barotropic`, `C76_disc`, `C76_energy`, `C76_entropy`, `C76_face`, `C76_ionised`, `C76_ionised_refuted`, `C76_locally`, `C76_mixture`, `C76_mixture_refuted`, `C76_polytrope`, `C76_polytrope_refuted`, `C76_sound`, `C76_sound_adiabatic`, `C76_sound_low`, `C76_sound_refuted`, `C76_temperature`, `C76_temperature_refuted`, `C77_ambient`, `C77_binary`, `C77_binary_refuted`, `C77_disc`, `C77_few`, `C77_gas`, `C77_read`, `C77_read_refuted`, `C77_relax`, `C77_relax_between`, `C77_relax_far`, `C77_relax_refuted`, `C77_row`, `C77_row_refuted`, `C77_sink`, `C78_cooling`, `C78_cooling_refuted`, `C78_entry_refuted`, `C78_floor`, `C78_heating`, `C78_heating_refuted`, `C78_implicit`, `C78_slope`, `C78_top_refuted`, `C78_weights_refuted`, `C79_exists`, `C79_flux`, `C79_rarefactions`, `C79_same`, `C79_shock_guess`, `C79_shocktube`, `C79_solution`, `C79_star`, `C79_upwind`, `C79_vacuum`, `C79_vacuum_refuted`, `C79_zmf`, `C79_zmf_refuted`, `C81_accepted`, `C81_arrays`, `C81_cgs`, `C81_code_units`, `C81_conversions`, `C81_dimensionless`, `C81_force_refuted`, `C81_labels`, `C81_laws`, `C81_luminosity_refuted`, `C81_magnetic_refuted`, `C81_potential_refuted`, `C81_pressure_refuted`, `C81_raise`, `C81_restart`, `C81_sink`, `C81_sink_refuted`, `C81_snapshot`, `C81_snapshot_refuted`, `C83_line_of_sight`, `C83_table`, `C84_r2`, `C84_r2_centre_refuted`, `C84_r2_plane_refuted`

* **A F**: `C07_build_partial`, `C07_depth_error_refuted`, `C07_divide`, `C07_first_build`, `C07_no_error`, `C07_two_particles`, `C08_pruned`, `C08_retry`, `C09_BoxOverlap`, `C09_BoxOverlap_point`, `C09_BoxOverlap_sym`, `C09_BoxesOverlap`, `C09_FractionalBoxOverlap_partial`, `C09_FractionalBoxOverlap_refuted`, `C09_ParticleInBox`, `C09_ParticleInBox_split`, `C10_ApplyPeriodicDistanceCorrection`, `C11_CheckBoundaries`, `C11_inside`, `C12_PeriodicBoxOverlap_partial`, `C12_PeriodicBoxOverlap_refuted`, `C13_ScatterGather_refuted`, `C15_EndSearch`, `C15_EndSearch_partition`, `C15_gravity_plain_refuted`, `C19_dkd_exact`, `C19_dkd_reversible`, `C19_dkd_scalars`, `C19_dkd_step`, `C19_kdk_exact`, `C19_kdk_predict`, `C19_kdk_reversible`, `C19_kdk_scalars`, `C19_kdk_step`, `C21_one_sink_each`, `C25_gaussian_gravity_refuted`, `C31_floatrand_partial`, `C31_floatrand_refuted`, `C32_column_restart_refuted`, `C32_column_time_refuted`, `C32_contents`, `C32_first_opportunity`, `C32_first_refuted`, `C32_lag_refuted`, `C32_nbody_restart_refuted`, `C32_numbers`, `C32_restarts_partial`, `C32_when`, `C33_crash_partial`, `C33_first_partial`, `C33_numbered_kept`, `C33_restart_refuted`, `C33_tmp_refuted`, `C36_InvertMatrix`, `C40_getClosestIndex`, `C49_tree_search_monotone`, `C50_larger_buffer`, `C51_kdtree`, `C51_oct_refuted`, `C55_conserved`, `C55_home_partial`, `C56_domains_partial`, `C56_ends_partial`, `C56_ends_refuted`, `C56_same_divisions_refuted`, `C57_homeless_refuted`, `C57_update_partial`, `C58_accreted_partial`, `C58_boundary_ghost_refuted`, `C58_first_ghost_refuted`, `C58_heating`, `C58_return`, `C58_two_sinks_refuted`, `C59_end_step`, `C59_shown`, `C61_rigid`, `C61_stress`, `C62_contact_jump`, `C63_end`, `C63_heated_refuted`, `C63_last`, `C63_middle`, `C63_reappears_refuted`, `C63_taken`, `C64_changing_force_refuted`, `C64_constant_force`, `C64_end`, `C64_middle`, `C64_middle_refuted`, `C69_springel`, `C69_tvd`, `C73_collate`, `C73_collate_refuted`, `C73_frame`, `C73_totals`, `C75_copy`, `C75_copy_refuted`, `C75_laws`, `C75_mfv_position`, `C75_mfv_position_refuted`, `C75_start`, `C75_start_test`, `C75_uniform`, `C77_closest`, `C77_densest`, `C77_inverse`, `C77_roundtrip`, `C77_roundtrip_refuted`, `C78_clip`, `C78_end`, `C78_start_refuted`, `C81_gigajoule_refuted`, `C81_names`, `C82_delay_refuted`, `C82_last_refuted`, `C82_plane_refuted`, `C82_random`, `C82_short_refuted`, `C82_single`, `C82_table`, `C83_lookup`, `C84_cubic`, `C84_cubic_normalised`, `C84_cubic_outside_refuted`, `C84_random_box`

* **A F K**: `C57_moved_partial`

## What is modelled

The first comment of each model file; each definition in it cites its own lines and simplifications.

* `M_Balance.v`: Load balancing between MPI processes: src/Mpi/MpiKDTreeDecomposition.cpp:288-480, src/Mpi/MpiTree.cpp:132-240 and 466-507, src/Tree/HydroTree.cpp:1462-1485 and 1553-1612, src/Tree/Tree.cpp:1556-1608 and 1687-1731, src/Mpi/MpiNode.cpp:99-138, src/Mpi/MpiControl.cpp:318-358. Reals for FLOAT.
* `M_Block.v`: Hierarchical block timesteps: Simulation.cpp:1764-2197 ComputeBlockTimesteps, the limiters SphLeapfrogKDK.cpp:284-329 and SphLeapfrogDKD.cpp:224-271 CheckTimesteps, the bookkeeping of EndTimestep (SphLeapfrogKDK.cpp:258-264, NbodyLeapfrogKDK.cpp:365-371) and the time advance of the main loop (SphSimulation.cpp:586-588). Simplifications: int is Z (see C16_no_overflow for the range); DOUBLE is R; both hydro and nbody are allocated (true in SphSimulation); no MPI; the OpenMP reductions (min, max) are folds, every loop body touches only its own particle; variables that are only used for diagnostics (dt_min, level_min_hydro) and the asserts (2160-2187, stated as theorems) are left out.
* `M_Box.v`: Boxes: InlineFuncs.h:362-480, DomainBox.h:194-237. FLOAT values are reals.
* `M_Dens.v`: Density and smoothing length: src/GradhSph/GradhSph.cpp:134-326 (ComputeH), src/Headers/Sph.h:259-268, src/GradhSph/GradhSphTree.cpp:81-255 (UpdateAllSphProperties, one cell), src/MeshlessFV/MfvCommon.cpp:104-233 (ComputeH), src/MeshlessFV/MfvCommon.cpp:268,302-306 and src/SM2013/SM2012Sph.cpp:222-234 (potential minimum). FLOAT values are reals, except that the midpoint of an interval is rounded by a given function [rnd]. Assertions, the thermal properties set at the end and the Cullen and Dehnen viscosity are left out.
* `M_Diag.v`: Diagnostics (src/Common/SimAnalysis.hpp:52-180, Diagnostics.h), their collection from all MPI processes (src/Mpi/MpiControl.cpp:1233-1277), the change to the frame of the centre of mass (src/Common/Simulation.cpp:1621-1645) and the external potentials (src/Headers/ExternalPotential.h). FLOAT and DOUBLE are R. A loop over k < ndim acts on every component. Binary statistics and output to screen and file are left out.
* `M_Distant.v`: The limit on time steps set by distant particles (the "conservative" limiter of the meshless scheme): Tree.cpp:888-1040 ComputeSignalVelocityFromDistantInteractions, called from HydroTree.cpp:673-766, and the time step that uses its result, MeshlessFV/MfvIntegration.cpp:8-35. FLOAT values are reals.
* `M_Dust.v`: Dust: src/Common/Dust.cpp with the drag laws of src/Headers/DragLaws.h, the types of src/Common/Particle.cpp:44-64 and the two calls at start-up of src/Hydrodynamics/SphSimulation.cpp:509-551. FLOAT and double are R. A quantity that may become NaN is an [option R], None being NaN. Left out: OpenMP, MPI (lines 652-658, 747-764), the tree walks that make the neighbour lists.
* `M_Eos.v`: Equations of state (src/Headers/EOS.h, src/Thermal/AdiabaticEOS.cpp, IsothermalEOS.cpp, LocallyIsothermal.cpp, DiscLocallyIsothermal.cpp, PolytropicEOS.cpp, BarotropicEOS.cpp, Barotropic2EOS.cpp, IonisingRadiationEOS.cpp, MCRadiationEOS.cpp), how one is chosen (src/Hydrodynamics/Hydrodynamics.cpp:80-118) and how it sets the thermal properties of a particle (src/GradhSph/GradhSph.cpp:335-347, src/SM2013/SM2012Sph.cpp:277-287, src/MeshlessFV/MeshlessFV.cpp:148-164) and the states at a face (EOS.h:169-184, MfvMuscl.cpp:216-221). FLOAT is R; pow(x,y) is [Rpower x y], which agrees with it for 0 < x. The tabulated one (Radws) is in M_Radws.v.
* `M_Exact.v`: The exact Riemann solver, src/Hydrodynamics/RiemannSolver.cpp. FLOAT is R; pow is [Rpower] for a base > 0. Output to the screen is left out; what the code reports as invalid (NaN, negative pressure) is Raise.
* `M_Export.v`: Which cells are sent to other MPI processes: src/Tree/Tree.cpp:1381-1549 (walks of a pruned tree), src/Tree/HydroTree.cpp:770-925 and 930-1035 (loops over active cells and processes). FLOAT values are reals, int values integers.
* `M_Force.v`: Grad-h SPH forces: src/GradhSph/GradhSph.cpp:361-690 and the loops around them in src/GradhSph/GradhSphTree.cpp:290-620. FLOAT values are reals; the assertions are left out. The kernel functions, the equation of state and the constants of the method are parameters.
* `M_Gather.v`: Geometric tests of the tree searches of src/Tree/Tree.cpp, on the stocked cells.
* `M_GatherGhost.v`: The point search over the tree of the real particles and the tree of the ghosts: HydroTree::GetGatherNeighbourList, src/Tree/HydroTree.cpp:451-471, built without MPI_PARALLEL.
* `M_Ghost.v`: Construction of ghost images: GhostNeighbours.hpp:41-109 and 228-490, the reflection of Particle.h:601-615.
* `M_Grad.v`: Gradients and slope limiters of the meshless scheme: src/MeshlessFV/MfvCommon.cpp:241-372 (ComputeGradients; the signal velocity and the levels are left out, the potential minimum is in M_Dens.v) and src/Headers/SlopeLimiter.h:44-389. FLOAT and double values are reals. A neighbour (GradNeib, FluxNeib) is a [gpart] of which position, Wprim and so on are read.
* `M_Hermite.v`: Stars: direct-summation forces and the Hermite and leapfrog integrators, Nbody.cpp:232-290, NbodyHermite4.cpp, NbodyHermite4TS.cpp, NbodyHermite6TS.cpp, NbodyLeapfrogKDK.cpp, the loop of NbodySimulation.cpp:312-402 without sub-systems and Simulation.cpp:1669-1750 (one time step for all). FLOAT and DOUBLE are R; powf (which computes in single precision) is the power of R. A loop over k < ndim acts on every component. A loop over i < N whose body writes only star i and reads of the other stars only fields that no body writes is the map of its body, which is also what the OpenMP loops compute. Not modelled: the Ewald correction (simbox.PeriodicGravity is false), external potentials, sub-systems and perturbers.
* `M_KDTree.v`: Model of the KD-tree construction, src/Tree/KDTree.cpp.
* `M_Kernel.v`: Smoothing kernels: SmoothingKernel.h:95-535 with the constructors in M4Kernel.cpp:36-56, QuinticKernel.cpp:36-56 and GaussianKernel.cpp:37-57. FLOAT values are reals; [n] is the template parameter ndim. Simplification: decimal literals that stand for a fraction and have at least as many digits as a double can hold (1.333333333333333333333 and so on) are the fraction; shorter ones are written as fractions too (1.5 is 3/2); [invpi] (Constants.h:63, 0.31830988618379) is 1/PI. The shorter literals of QuinticKernel::wzeta are kept as written.
* `M_Lattice.v`: Initial positions: Ic.cpp:440-459 AddRandomBox, 504-577 AddLatticeSphere, 629-692 AddCubicLattice, 701-764 AddHexagonalLattice, 775-840 CutSphere, the stretching of EvrardCollapseIc.cpp:96-107, and 586-618 Addr2Sphere. FLOAT is R.
* `M_League.v`: Who talks to whom and when: src/Mpi/MpiControl.cpp:67-71 (check of the number of processes), 208-310 (CreateLeagueCalendar), the exchange loop of src/Mpi/MpiKDTreeDecomposition.cpp:407-466, and the blocking MPI calls used there. Integers are unbounded.
* `M_Leapfrog.v`: SPH leapfrog integrators, one particle at a time: SphLeapfrogKDK.cpp:76-272 and SphLeapfrogDKD.cpp:77-214. Every loop body touches only its own particle, so the OpenMP loop over particles is the map of the body. FLOAT is R, the vectors are functions of the component index (the loops over k < ndim are applied to every component).
* `M_Level.v`: InlineFuncs.h:550-558 ComputeTimestepLevel, over the reals. Constants.h:67 invlogetwo is the decimal literal 1.44269504088896, slightly below 1/ln 2. The asserts dt_max > 0, dt > 0 are hypotheses of the theorems.
* `M_Lookup.v`: Model of the table look-up functions, src/Headers/InlineFuncs.h:645-678.
* `M_Matrix.v`: Model of the matrix helpers of src/Headers/InlineFuncs.h.
* `M_Mfv.v`: The meshless finite-volume scheme: exchange of mass, momentum and energy between neighbours, src/MeshlessFV/MfvMuscl.cpp:76-250 (ComputeGodunovFlux), src/MeshlessFV/MeshlessFVTree.cpp:486-645 (UpdateGodunovFluxes), src/MeshlessFV/MfvIntegration.cpp:41-270 (AdvanceParticles, EndTimestep, CheckTimesteps), src/MeshlessFV/MeshlessFV.cpp:175-192 (UpdateArrayVariables), src/Headers/MeshlessFV.h:112-118 (AccreteMassFromParticle). FLOAT values are reals. Assertions are left out.
* `M_NNTree.v`: The nearest-neighbour tree of stars, sub-systems and binary orbits (src/Nbody/NbodySystemTree.cpp, with the arrays of src/Headers/NbodySystemTree.h:50-74, SystemParticle.h:33-60 and BinaryOrbit.h). FLOAT is R, -1 as an index is None, arrays are functions or lists and every write beyond the capacity of an array is UB. A loop over k < ndim acts on every component.
* `M_Neib.v`: class NeighbourManager, src/Headers/NeighbourManager.h:361-562: collecting the data of a cell's candidate neighbours and splitting them for one particle.
* `M_Oct.v`: The oct-tree: src/Tree/OctTree.cpp:99-128 (AllocateTreeMemory), 210-445 (BuildTree) and the parts of 455-726 (StockTree) that deal with the lists of particles, their numbers and the bounding boxes. FLOAT values are reals. The assertions are left out (they are compiled in only with DEBUG_LEVEL 1 or 2, src/Makefile:163-169).
* `M_Output.v`: Snapshot files, the restart file and the main loop: SimulationBase::Run, Output, RestartSnapshot and SetupSimulation (Common/Simulation.cpp 382-411, 502-631, 641-690), the restart part of GenerateIC (Common/SimulationIC.hpp 60-80), the headers read and written in Common/SimulationIO.hpp and ConvertToCodeUnits (2508-2559). Simplifications: serial code (rank = 0); times are real numbers and a file holds them exactly; the particles are an arbitrary list of numbers, each of which is one item of a snapshot file; what a main loop step does is an argument (the increment of t, the new particles, whether n%nresync = 0 afterwards and whether the wall clock is past 0.95*tmax_wallclock at the two places it is read); Nsteps and the counters fit an int; files can always be opened. Screen output, diagnostics and timing are left out.
* `M_Params.v`: Parameters and parameter files: Common/Parameters.cpp 75-152 and 551-688, SimulationBase::SetParam (Simulation.cpp:287-338), with the behaviour of the libstdc++ streams they use. Simplifications: a string is a list of characters; the three std::map are association lists in the order of iteration; a double is the real number it represents (no NaN, no infinities, one zero); length() and find() fit an int.
* `M_Periodic.v`: Periodic and reflecting boundaries: DomainBox.h, GhostNeighbours.hpp:41-226, Common/Integration.cpp:11-85. FLOAT values are reals.
* `M_Prune.v`: Pruned copies of the local tree for other MPI nodes: src/Tree/Tree.cpp:1149-1335, src/Tree/HydroTree.cpp:1112-1141. FLOAT values are reals, int values integers.
* `M_Radws.v`: Gas that cools by diffusion of radiation through a table (src/Common/OpacityTable.cpp, src/Headers/OpacityTable.h, src/Thermal/RadwsEOS.cpp, src/Hydrodynamics/EnergyRadws.cpp, src/Headers/InlineFuncs.h:647-678) and heating by stars (src/Thermal/RadiativeFB.cpp). FLOAT is R; pow is [Rpower] (base > 0); log10 x = ln x / ln 10. Arrays are functions of an index with their sizes kept in the table; an access that may leave an array goes through [idx], which is UB there.
* `M_Rand.v`: Model of class XorshiftRand, src/Headers/RandomNumber.h:71-129.
* `M_Render.v`: Rendered images: Common/Render.cpp:98-423, and the line-of-sight table of the kernel, Hydrodynamics/TabulatedKernel.cpp:143-181. SNAPFLOAT is R; conversions to int do not overflow; the particles are added one after the other (the OpenMP loop adds atomically).
* `M_Return.v`: Ghosts of particles of other MPI processes, and the way back of changes made to them: src/Mpi/MpiControl.cpp:530-712 (DoUpdateMpiGhostParents and what it returns), 995-1155 (SendReceiveGhosts, UpdateGhostParticles), src/Hydrodynamics/Ghosts.cpp:160-222 (MpiGhostsSpecific), src/Nbody/Sinks.cpp:705-712. FLOAT and DOUBLE are reals. Entry [r] of a list belongs to rank [r].
* `M_Riemann.v`: The HLLC Riemann solver and the viscous flux at a face, src/Headers/RiemannSolver.h:120-420, 444-515. FLOAT and double values are reals.
* `M_Search.v`: Model of the tree searches of src/Tree/Tree.cpp.
* `M_Sink.v`: Sink particles: src/Nbody/Sinks.cpp:118-769, built without MPI_PARALLEL. FLOAT values are reals. A star that belongs to a sink is stored in the sink's record.
* `M_SinkNew.v`: Creation of sinks: src/Nbody/Sinks.cpp:118-355, built without MPI_PARALLEL. hmin_sink and the output are left out; of the star, the fields of [sink] in M_Sink are kept.
* `M_Sort.v`: Model of the two insertion sorts of src/Headers/InlineFuncs.h. The value type is [Z]: the code only compares values with [<=]. The array is a list; every access is bounds-checked.
* `M_Stock.v`: Model of the stocking of KD-tree cells: KDTree.cpp:752-1085.
* `M_Store.v`: Model of the particle storage: growth and removal of particles. [P] is the particle structure; [default] an element of a freshly allocated array.
* `M_Supernova.v`: Supernovae: Feedback/Supernova.cpp, Feedback/SupernovaDriver.cpp, Hydrodynamics.cpp:132-180 CreateNewParticle, Ic.cpp:465-495 AddRandomSphere and the call in SphSimulation.cpp:601-604. FLOAT is R.
* `M_Sync.v`: Sinks on several MPI processes: src/Mpi/MpiControl.cpp:397-520 UpdateSinksAfterAccretion, and the collective MPI calls used there. FLOAT and DOUBLE are reals. All processes are modelled together: entry [r] of a list belongs to rank [r].
* `M_Table.v`: Tabulated kernels: src/Headers/SmoothingKernel.h:583-663 and src/Hydrodynamics/TabulatedKernel.cpp:58-96, in the arithmetic of the machine. FLOAT is IEEE-754 binary64 (PRECISION = DOUBLE, prec = 53, emax = 1024) or binary32 (PRECISION = SINGLE, prec = 24, emax = 128) with rounding to nearest, ties to even. The tables of the line of sight integral (TabulatedKernel.cpp:145-182) are looked up by the same function; how that table is filled is left out.
* `M_Units.v`: Units: Common/SimUnits.cpp, Headers/SimUnits.h, the constants of Headers/Constants.h, the units of the arrays handed to Python (Common/SphSnapshot.cpp:509-631), the units read from a snapshot (Common/SimulationIO.hpp:695-718) and the sink density (Hydrodynamics/SphSimulation.cpp:128-129, MeshlessFV/MeshlessFVSimulation.cpp:330-331). DOUBLE values are reals.
* `M_Util.v`: Model of small utilities: status flags, id check, displacement and byte buffers, table look-up.
* `M_Walk.v`: Skeleton shared by all the non-recursive tree walks of src/Tree/Tree.cpp (e.g. 208-280, 291-381, 394-493, 628-735, 1387-1480, 1491-1549, 1556-1608, 1615-1678, 1687-1731): cc = 0; while (cc < Ncell) { ... look at celldata[cc], possibly append to lists ... cc = celldata[cc].copen or cc = celldata[cc].cnext; } [visit cc s] performs the body for cell [cc] on the accumulated state [s] and says whether the walk continues with [copen] ([Down]), with [cnext] ([Skip]), or returns from the function ([Stop], used for "not enough memory" returns).

## What is not modelled

* Floating-point rounding, overflow, NaN and infinities outside C26 and C30; compiler behaviour; signed overflow of int outside C16.
* The Saitoh and Makino `ComputeH` apart from its potential-minimum test, the Cullen and Dehnen viscosity switch, radiative transfer, ionisation, the column density metrics of `EnergyRadws` (GetCol2),
  drag across MPI processes.
* Star integrators with block time steps, `NbodyLeapfrogDKD`; perturbers in the star loop and the search for them, restocking of the star tree (NbodySystemTree::FindPerturberLists, RestockTreeNodes), internal motion of sub-systems (Nbody::IntegrateInternalMotion); Ewald sums (their
  tables and corrections), except that the multipole walks leave them to the code.
* Initial conditions other than lattices, random boxes, random, lattice and 1/r^2 spheres, the Python interface, analysis, LaTeX labels of units, snapshot formats as byte layouts.
* The nonblocking exchange of cells with their particles and of accelerations before and after the force loops
  (the choice of what is exchanged is C52, C53); the initial domain decomposition; time stepping between processes.
* OpenMP data races in general: loops whose bodies touch only their own particle are maps; only the accretion loops
  are treated under all schedules.

## Deviations found

Where a property is not fully proved, the reason as recorded in the manifest:

* **C07** (Oct-tree division keeps every particle in exactly one child and respects child boxes): Division of a cell, the grown and the stocked tree are proved (C07_divide, C07_build_partial) for every tree state a program can reach. The last clause of the property is false of the code: firstCell/lastCell are written past their end before the level test (C07_no_error, C07_depth_error_refuted), every first build of more than Nleafmax particles near the origin in one orthant overruns (C07_first_build), and a new tree for at most two particles has too few cells (C07_two_particles). C07_build_partial gives a sufficient condition for success.
* **C09** (Box overlap tests decide geometric intersection): FractionalBoxOverlap is refuted when edges coincide (C09_FractionalBoxOverlap_refuted); everything else is proved for all boxes.
* **C12** (Periodic cell overlap test never misses an image): Proved for boxes periodic in every or no direction; with mixed boundaries PeriodicBoxOverlap reads an unassigned variable (C12_PeriodicBoxOverlap_refuted).
* **C13** (Ghost construction yields exactly the mirror images and fits its buffer): ConstructAllGhosts proved without restriction; ConstructGhostsScatterGather proved complete when the output vector has room, and refuted otherwise (dangling reference). ConstructGhostsGather has no caller and is not modelled.
* **C16** (Block timesteps keep all particles synchronised with the integer clock): Proved in full for the kick-drift-kick limiter (all runs of the main loop with arbitrary requests, deaths, new sinks, levels added and removed; level_diff_max >= 1). For the drift-kick-drift limiter the claim is false: C16_DKD_refuted exhibits a run. The bound on the new step carries the rounding factor of C17.
* **C17** (A timestep's level gives a step no longer than the timestep): Proved with a relative slack of 1e-14 per level (the literal 1.44269504088896 is below 1/ln 2) and, for dt <= dt_max, not shortened by more than two. Refuted: the strict/exact bound and the factor-of-two claim for dt_max < dt < 2 dt_max (cast truncates toward zero).
* **C18** (Timestep limiter only shortens steps at points of the hierarchy): Proved in full for the kick-drift-kick limiter with level_diff_max >= 1 (exact effect on every particle, no division by zero, loop terminates). False for the drift-kick-drift limiter (C18_DKD_refuted) and for level_diff_max = 0 with sinks (C18_level_diff_zero_refuted: division by zero).
* **C20** (Sink accretion conserves mass, momentum, centre of mass and angular momentum): Proved for every schedule (order of assignments, order of sinks, lists found by the searches), with and without smooth accretion: mass, momentum, centre of mass, force, heat and angular momentum (orbital + sink spin) of sinks plus all particles in the array are unchanged; without ghosts this is all the gas. Refuted with periodic or mirror boundaries: swallowing a ghost leaves its original, so the mass grows (C20_ghost_refuted). Real-number arithmetic. Kinetic energy is not conserved by such a merger and not claimed.
* **C22** (Sink creation respects limits and conserves mass): Proved: creation takes only eligible particles, moves mass, position, velocity and marks the gas dead; the densest candidate first; nothing if the requested number exists. Refuted: Nsinkfixed may be exceeded in one call (C22_requested_number_refuted), the star's invh does not match its h unless the sink has the kernel's size (C22_invh_refuted).
* **C24** (Quintic kernel functions are mutually consistent): Density functions and normalisations proved in full. Refuted: wzeta (wrong factor and sign) and continuity of wgrav/wpot at s=3 (prefactor 12/359 instead of 12/360). Force = -dpot/ds proved away from s=3.
* **C25** (Gaussian kernel functions are mutually consistent): Proved: w1, sign, monotonicity, support. Refuted with witnesses: womega (correct at s=0 and 1 only), continuity at the cut-off, gravity functions (all zero), normalisation in 2D.
* **C29** (The viscosity switch behaves the same with and without self-gravity): False of the serial code: without gravity the stored rate accumulates over evaluations (ZeroAccelerations does not reset dalphadt, GradhSphTree.cpp:403 adds), with gravity it is never stored and is computed with the wrong sign of div v (GradhSph.cpp:581). Proved: the rate is right for the first evaluation without gravity.
* **C30** (A parameter file is read back exactly as recorded): Assignment lines, ignored lines, file reading and record/read round trip proved. Full statement is false: a bare name sets the parameter, a value with ':' is ignored, blanks inside strings are removed, doubles are recorded with six digits (four _refuted witnesses); round trip proved exactly for six-digit doubles and to relative 1e-5 otherwise.
* **C31** (Random numbers are reproducible, never stuck and within range): Bijectivity, full period 2^64-1 and positivity proved; 'below one' refuted (C31_floatrand_refuted: invrandmax is larger than 2^-64) and the mean/width of gaussrand are ignored (C31_gaussrand_refuted).
* **C32** (Snapshots are numbered consecutively and not lost): First run: numbers, times, first opportunity (steps no longer than the interval) and contents proved for all runs. Refuted: long steps lag behind, column-format and N-body restarts reuse numbers, column restarts convert the time twice, a restart from a temporary snapshot before the first output time forgets that time. Restarts proved for the Seren formats with tsnapfirst = dt_snap or <= 0, after any history of interrupted jobs.
* **C33** (A crash at any point leaves a usable restart): The statement is refuted: a crash while the restart file, or the temporary snapshot it names, is being rewritten leaves nothing to restart from. Proved for every crash point of every history: outside these two windows the restart file names a complete snapshot; numbered snapshots stay complete.
* **C35** (Duplicate-id checks find every duplicate): Refuted: [0;0;1] is accepted, because the second loop tests a stale index. C35_VerifyUniqueIds_exact says what is decided.
* **C37** (Creating particles never writes beyond allocated storage): Refuted for full storage of one to four particles (C37_create_refuted); proved for five or more; ghost creation proved for any storage.
* **C42** (Gravity of gas on stars counts every particle once and the list construction ends): The lists are proved exact; termination of the caller's retry loop is refuted (C42_star_retry_refuted).
* **C43** (The stored step length of a particle is the length of its step): False in four independent ways (C43_*_refuted: limiter, jump above the deepest level stores dt = 0, hydro_single_timestep, integration_step = 2 after a resynchronisation); C43_stored_dt_partial proves it in all remaining cases.
* **C45** (The gravitational potential counts every particle once): False: every particle is in its own neighbour list in addition to the self term of GradhSphTree.cpp:512, so its own potential is counted twice. Proved: the exact formula of the stored potential.
* **C46** (A particle knows the shortest timestep among its neighbours): Proved without gravity and with gravity when there are no neighbours for gravity only; with them false (GradhSph.cpp:641 reads sphdata[j] instead of neibpart[j]).
* **C47** (Hydrodynamical forces do not depend on the units): Proved for ComputeSphHydroForces with every viscosity and with no or Wadsley conductivity; false for price2008, whose term is dimensionally inconsistent.
* **C48** (A new sink does not overlap an existing one): Proved if radii are multiples of h (default) or the exclusion radius covers the actual one; refuted for fixed and kernel radius modes.
* **C49** (Accretion does not depend on the thread schedule and, without smooth accretion, takes everything): Proved: order of sinks never matters; the order of assignments does not matter if no particle is in two sinks; everything is swallowed if no particle is lighter than the code's tiny_number and both searches agree, which holds if the same thread treats a sink in both loops. Refuted: overlapping sinks depend on the schedule; particles lighter than tiny may stay; with another thread's smaller buffer the second search fails unnoticed and nothing is accreted.
* **C50** (The point search covers real and ghost particles and respects its buffer): Proved: complete if the buffer has room for the particles in range plus one leaf; larger buffers do not change complete answers; all cases classified. Refuted: with ghosts, a full buffer in the real tree's search makes the ghost search write at index -1 (C50_no_overrun_refuted).
* **C51** (The size assumed for an exchanged pruned tree is enough): KD-tree: 2^(level+1)-1 cells always suffice (C51_kdtree). Oct-tree: (2^ndim)^level is too small; C51_oct_refuted gives an octant tree with 9 cells at level 1 where 8 are assumed.
* **C55** (Load balancing moves every particle to the process owning its domain and loses none): Proved for every accepted number of processes, every message schedule and arbitrary (even inconsistent) views of the domains: the exchange is prepared without error, cannot stop early, and leaves each process exactly the particles prescribed (C55_transfer); with non-overlapping domains nothing is lost or doubled (C55_conserved); every particle inside the tiled box is home (C55_home_partial). Missing and false: particles on the upper faces of the box of all particles are in no half-open domain and stay where they are (C55_outermost_refuted). The tree is taken as stocked (default ntreestockstep = 1).
* **C56** (New domains fill the box and share the work evenly): Proved: tiling, divisions strictly inside and even to 1/1000, no array overrun, for every accepted number of processes, whenever the search ends (C56_domains_partial); it ends for work that is spread out (C56_ends_partial). False in general: a box face on a cell face makes FractionalBoxOverlap double-count and the search loop for ever (C56_ends_refuted); processes holding differently pruned trees find different divisions (C56_same_divisions_refuted).
* **C57** (After accretion all processes know the same sinks): Proved for all numbers of processes and sinks: if exactly one process finds its copy of each sink in its own domain, the exchange stays in its buffers and every other process takes over the owner's values (C57_update_partial). Refuted in general: if a sink is in no domain process 0 writes past its send buffer (C57_homeless_refuted), and one swallowed particle can bring this about since the owner's copy moves before the ownership is decided while the others still have the old position (C57_crossing_refuted). A case found by two processes is not covered.
* **C58** (Changes to ghosts of other processes' particles reach the particles themselves): Proved for all numbers of processes, export lists and boundary ghosts: the exchange makes exact copies (C58_ghosts, C58_refresh) and brings about what the return needs (C58_established); every real particle gets the changes of exactly those listed ghosts that are copies of it (C58_return); heat adds up (C58_heating); a particle changed by one process gets its mass back (C58_accreted_partial). Refuted: the first ghost is never listed by the accretion loop, which tests i > Nhydro (C58_first_ghost_refuted); swallowed boundary ghosts are listed and delete particle iorig of process 0 (C58_boundary_ghost_refuted); if sinks of two processes take from one particle the last one wins (C58_two_sinks_refuted).
* **C59** (The meshless finite-volume scheme keeps mass, momentum and energy): Proved for all particles, neighbour lists, threads, schedules, solvers, limiters and kernels: each particle is credited exactly what it gains in its exchanges (C59_credits), totals change only by what goes into walls (C59_conserved), the end of a step turns credits into mass, velocity and energy (C59_end_step, C59_shown), and over any history without the simple limiter totals change only by walls, forces and cooling (C59_run). Refuted: the 'simple' limiter drops part of one particle's credit when it wakes it (C59_simple_limiter_refuted); masses shown in the middle of a step do not add up (C59_between_refuted).
* **C60** (It does not matter which of two neighbours computes their exchange): Proved for HLLC in all modes, any equation of state, with and without viscosity: credits and rates do not depend on which particle computes (C60_exchange, C60_exchange_viscous). Refuted for rdmdt: the neighbour gets the wrong sign (C60_rdmdt, C60_rdmdt_refuted).
* **C61** (A gas moving as a whole behaves like the gas at rest): Proved without viscosity (C61_moving). With viscosity the energy flux uses the velocity in the frame of the face; the theorem gives the exact error, the work of the viscous force over the motion of the whole (C61_viscous), and a witness shows it is not zero (C61_viscous_refuted). Static particles are not Galilean and excluded.
* **C62** (The HLLC solver returns the flux of a flow that obeys the conservation laws): Proved for all states: consistency, three waves obeying the jump conditions, contacts and shear exact, exchange of sides; zero mass flux when the contact lies between the outer waves (C62_zero_mass_flux). Refuted without that condition: for gamma=21/20 the contact can be faster than the outer wave and the energy flux is wrong (C62_zero_mass_flux_refuted).
* **C63** (What a sink takes from a gas particle is gone from it (meshless scheme)): Proved: the content of the particle is lowered by exactly the mass taken and its momentum (C63_taken), at the end of the step the mass is gone and the velocity kept (C63_end, C63_taken). Refuted: the energy is not taken, so the rest is heated (C63_heated_refuted, exact amount in C63_end); in the middle of a step the mass shown is whole again at the next prediction (C63_middle), so a sink on shorter steps can take more than there is and the particle ends with negative mass (C63_reappears_refuted).
* **C64** (Forces move the gas and do not heat it (meshless scheme)): Proved: velocities are exact for the mean acceleration and constant forces do not heat at the end of a step (C64_end, C64_constant_force). Refuted: in the middle of a step the temperature shown is too high by t(dt-t)a^2/2 since part.dt is used for dt (C64_middle, C64_middle_refuted), and a changing force heats by dt^2/8 times the square of its change per mass (C64_end, C64_changing_force_refuted).
* **C65** (Density and smoothing length of an SPH particle fit each other): Proved: whatever is accepted has the density smoothed over a length that agrees with the stored one and with the one belonging to the density to the tolerance, or is at a limit, or cannot be bisected further (C65_density, C65_cell, C65_all); if a fitting length exists between the limits the iteration does not give up (C65_found, exact midpoints); the enlarging of neighbour lists ends (C65_ends). Refuted with sinks present: a length may be set to the lower limit together with a density formed with another length although a fitting length exists (C65_clipped_refuted); particles of a cell whose lengths are all below the limit are left without a density (C65_stuck_refuted).
* **C67** (Only a particle at the bottom of the local potential is marked as such): Proved for the meshless scheme and the Saitoh and Makino scheme (C67_deepest) and for grad-h SPH if all listed neighbours are within range (C67_near). Refuted for grad-h SPH: each neighbour is judged by the distance of the one before it in the list, so marks are both set and missed wrongly (C67_refuted).
* **C68** (Number density and smoothing length fit each other in the meshless scheme): Proved: what is accepted (C68_density), and that a length fitting at the start gives the right values (C68_settled). Refuted: the test of convergence uses the length before the iteration, so two lengths leading to each other are accepted with half the density (C68_cycle_refuted); the tolerance is an absolute length (C68_tolerance_refuted); zeta is always zero (C68_zeta, C68_zeta_refuted) and 1/Omega depends on its old value (C68_omega_refuted).
* **C69** (Slope limiters keep values at faces within bounds, keep linear fields, and do not depend on the observer): Bounds, positivity, exactness for linear fields (null, tvdscalar, springel2009, and the pair limiter of gizmo) and independence of the observer (all but gizmo) are proved. The full statement is false: the scalar limiter, and with it gizmo, diminishes the slope of a linear field (C69_scalar_linear_refuted); the slopes of gizmo depend on the velocity of the observer (C69_gizmo_moving_refuted). Positivity is of the values extrapolated in space; the half step in time is floored by the code.
* **C70** (Gradients of the meshless scheme are exact for linear fields): Proved for particles not marked as having bad gradients; the gradients used otherwise are not exact for linear fields (C70_bad_refuted).
* **C71** (Forces between stars are the gradient of the potential, their jerks the time derivative, and they conserve momentum, angular momentum and energy): Proved for every number of stars: unsoftened and softened accelerations are the sums of Newton's or the kernel's attraction and the gradient of the reported potential; jerks are time derivatives (softened: in three dimensions); start-up second and third derivatives; sixth-order second derivative for two stars; total force, torque and power vanish or match. Refuted: the sixth-order second derivative with three stars (assigned, not summed, NbodyHermite6TS.cpp:167) and the softened jerk in two dimensions. Missing: softened leapfrog (adds a small number to the distance).
* **C72** (The integration of stars keeps the centre of mass, is as accurate as its order says, obeys the time-step criterion and can be reversed): Proved for runs of any length of the main loop with one level: momentum and centre of mass for all schemes (sixth order: softened or at most two stars), error of one step of every scheme in terms of the derivatives of the true motion and of the errors of the forces, the time-step criterion, reversibility of the leapfrog and of converged time-symmetric steps. Refuted: centre of mass of three stars with the sixth-order scheme. Also shown: positions of hermite4ts are one order worse, softened sixth order has third-order errors in velocity and ignores nbody_mult. Missing: block time steps, errors accumulated over many steps.
* **C73** (Reported totals are the sums they are named after, on one process or many, and the reported energy is conserved): totals, centre-of-mass frame, MPI collection, Plummer forces and jerks and conservation of the reported energy for all inputs; refuted: dead particles of other processes are not counted, VerticalPotential lacks the factor two, gas without self-gravity ignores external potentials in the energy
* **C74** (The nearest-neighbour tree of stars, the sub-systems and the binary orbits found in it are what they claim to be): proved as stated except: stars whose squared distances are all at least 9.9e20 make the tree loop run for ever (C74_tree_refuted), and a hierarchy of four stars made of a star and a triple is labelled a triple (C74_types_refuted); the positive theorems exclude the first by hypothesis and cover the labels binary and quadruple
* **C75** (Drag between gas and dust damps relative motion exactly and conserves momentum, angular momentum and energy): Proved: mean drag equals the exact damping (C75_mean, C75_test), no overshoot (C75_stable), momentum, angular momentum and energy (C75_momentum, C75_torque, C75_energy), interpolation (C75_copy, C75_test, C75_enlarge, C75_uniform), signals for time steps, laws, start velocities. Refuted parts: heating NaN when only gas of zero kernel weight is seen; heating counted twice at start-up; meshless position wrong unless the mass is one; dead particles corrupt the neighbour copies; absolute tolerance of the smoothing length; LP2012 law unusable with test particles.
* **C76** (Equations of state give energy, pressure, temperature, entropy and speed of sound that belong together): Proved for every equation of state but the tabulated one: positivity and p=(gamma-1) rho u, ideal-gas temperature, sound speed as derivative of pressure (isothermal kinds, and at constant entropy), entropic function, states at faces, repetition, barotropic and disc laws, ionised and mixed gas, choice by name. Refuted by witnesses: polytrope with default parameters, adiabatic temperature for mu_bar other than one, sound speed of barotropic, polytropic and mixed gas (bounded by sqrt(gamma) instead), repeated mixing with an energy equation, temperature of ionised gas, two names with ionising stars.
* **C77** (Tabulated gas follows its table, stars heat it by the flux they send, and it relaxes exactly): Proved: nearest entry, reading, gas relations of the entry chosen, right row for one row or rows below both values, energy of a pressure with gamma constant along the row, fluxes of stars, one central star, exact relaxation, bounds. Refuted: the row is chosen with the density although densities are stored as logarithms, energy of a pressure with varying gamma, two central stars heating a disc, files longer than announced, relaxation times below 1e-20.
* **C78** (Cooling finds the equilibrium temperature and solves the implicit energy equation within the table): Proved for rows of constant opacity (and, for the implicit update, constant gamma and molecular weight): heating, cooling next to the lowest temperature, floor, implicit solution to the tolerance with enough iterations; for all tables the initial rate of relaxation; the state at the end of a step and the clip. Refuted: cooling to any higher equilibrium and equilibria beyond the table leave the array, an equilibrium exactly on an entry is missed, interpolation weights reversed, predicted momentum at the start of a step. Rows with varying opacity are covered only by the refutations.
* **C79** (The exact Riemann solver solves the Riemann problem and its fluxes are those of the solution): Existence, uniqueness, the iteration, the sampled solution, fluxes in one to three dimensions are proved for all states; the full statement is false: C79_zmf_refuted (finite-mass faces take the state of the old face's ray) and C79_vacuum_refuted (no flux although supersonic gas crosses the face). Between shocks the sampled profile is proved to be the solution for the exact pressure and velocity; the computed ones are within the proved bounds of these.
* **C80** (The conservative limiter gives every particle a time step short enough for every signal that can reach it): In one dimension and an open domain the limit is proved for every tree, with the export test of pruned trees; in any dimension only signal speeds change, they never fall and never exceed what some particle asks for; the time step is the smallest criterion. Refuted: in the plane (overlapping extents counted as distance), in a periodic domain, with the octal tree, and without hydrodynamics and self-gravity. Not proved: a sufficient condition in two and three dimensions; mirror images.
* **C81** (Units: every name means what it says, all code units come from one length, mass and time with G = 1, and every conversion keeps the physical value): Proved for every parameter set: names (all but GJ), code units from one L, M, T with G=1 for all quantities but luminosity and the three electromagnetic ones, physical laws, conversions, cgs (all but pressure), labels, arrays (all but gpot), round trip, acceptance, dimensionless runs. Refuted with witnesses: GJ, luminosity, pressure in cgs, force labels, electromagnetic units, snapshot units ignored, potential array, sink density of the meshless code. Doubles are reals.
* **C82** (Supernovae: the mass and energy asked for are put in, at the place and times asked for, and stay): Mass, sphere, radial kick, energy shares (real neighbours of the mean mass), memory from five particles on, single, random and table drivers proved; witnesses that velocities are replaced, momentum changes, unequal masses and ghosts change the energy, empty spheres lose it, particles in mid-step lose kick and heat, and the table driver fails after the last entry, with wrong row counts and below three dimensions.
* **C83** (Rendered images show the smoothed quantity at every pixel, whatever the order of the particles): Slices, columns with equal smoothing lengths, planar images, bounds, order, the line-of-sight table and its look-up proved; witnesses that pixels show their corner instead of their centre, that columns weigh by one over the smoothing length, that faint pixels are not normalised, and that images of one-dimensional runs are blank.
* **C84** (Lattices fill the box they are given, lattice points keep their distance, and spheres cut out of lattices hold at most the number wanted): Proved: cubic lattices tile their box (normalised ones if the numbers fit the edges); the distance bound of hexagonal lattices in all dimensions, the twelve touching neighbours in space and their extent in the plane; everything said of CutSphere when no more points lie at the centre than are wanted (fewer than wanted up to one part in 10^8 of the radius); AddLatticeSphere for every lattice size; random boxes; the 1/r^2 sphere about the origin in space; the Evrard profile for radius 1. Refuted with witnesses: normalised lattices inside boxes that do not fit, hexagonal lattices inside the box in space (every size), centred in one dimension and filling the box when not normalised, CutSphere ending in general and about a centre other than the origin, the 1/r^2 sphere about another centre and in fewer dimensions, the Evrard profile for other radii.

Further observations made while reading, used to choose witnesses or left for later properties:

* The root box of an oct-tree is never set from the particles (`OctTree.cpp:249-288`); the first build starts from +-9.9e20.
* `MpiControl.cpp:68` tests for odd process numbers in a way that never fires; `gandalf.cpp:70` refuses all but powers of two.
* `Sinks.cpp:507`: the result -1 of the second search is not handled; `Sinks.cpp:707` tests `i > Nhydro` for ghosts.
* `HydroTree.cpp:451-471`: a full buffer (-1) in the first search becomes the write position of the second.
* `GradhSphTree.cpp:512`, `GradhSph.cpp:581`, `GradhSph.cpp:641`, `GradhSphTree.cpp:403`: see C45, C29, C46.
* `NbodySimulation.cpp:191` resets the snapshot counter after a restart; column snapshots divide the time by its unit twice.
* Asserts are compiled in only with `DEBUG_LEVEL` 1 or 2 (`src/Makefile:163-169`) and are not part of the models unless said so.
* `NbodyHermite6TS.cpp:167` assigns the second derivative instead of adding it up, so that with three or more stars only the last neighbour counts: momentum is no longer conserved (C71, C72).
* `NbodyHermite6TS.cpp:212-248`: the softened loop never computes the second derivative; steps have only third-order errors and `nbody_mult` has no effect on them (C72).
* The softened jerk of `NbodyHermite4.cpp` uses the three-dimensional factor in one and two dimensions (C71); positions of `NbodyHermite4TS` are one order less accurate than velocities (C72).
* `ExternalPotential.h:84-112`: `VerticalPotential` adds the potential once, `PlummerPotential` twice; only the latter gives a conserved total energy (C73). Without self-gravity and stars no external potential counts in the total energy (`SimAnalysis.hpp:164`). In the meshless schemes gas never feels the external potential.
* `MpiControl.cpp:1248-1261` does not add up the number of dead particles (C73).
* `NbodySystemTree.cpp:180-200`: the search for the nearest neighbour starts from 9.9e20 as the least squared distance; if all stars are further apart than 3.1e10 units no pair is ever joined and the loop never ends (C74).
* `NbodySystemTree.cpp:661-671`: a star that orbits a triple is labelled a triple (C74).
* With both `binary_stats` and `sub_systems` the diagnostics rebuild the tree shared with the systems, so that `inode` of existing systems refers to other nodes (read, not modelled).
* `Dust.cpp:511-517`: the test for dead particles uses the index left over from the loop before: if the particle whose number is the count of active ones is dead no neighbour is copied and data of an earlier cell are used; a dead neighbour is used and those behind it are lost (C75).
* `Dust.cpp:126-128`: the meshless update adds the change of momentum, not divided by the mass, to the velocity from which the position is computed (C75).
* `Dust.cpp:1114-1121`: a dust particle that sees only gas whose kernels do not reach it divides zero by zero: the heating of that gas becomes NaN (C75).
* `Dust.cpp:894`: the smoothing length of dust is accepted by an absolute, not relative, tolerance (C75).
* `DragLaws.h`: the law of Laibe and Price (2012) has stopping time zero for test particles: the assertion (or NaN) follows (C75).
* `SphSimulation.cpp:509-551`: the acceleration is reset between the two drag calls at start-up, the heating is not, and is counted twice (C75).
* `Dust.cpp:757`: under MPI only positive heating of ghosts is sent back (read, not modelled).
* `PolytropicEOS.cpp:35-36`: gamma_eos and eta_eos are exchanged: pressure is K rho^gamma_eos, energy and sound speed use eta_eos; with the default parameters they do not belong together (C76).
* `AdiabaticEOS.cpp:95`: the temperature of gas with an energy equation leaves out mu_bar (C76).
* `BarotropicEOS.cpp:78`, `Barotropic2EOS.cpp:79`, `PolytropicEOS.cpp:85`: the speed of sound is sqrt(p/rho), too small by up to sqrt(gamma) (C76).
* `MCRadiationEOS.cpp:95, 109`: the sound speed mixes the ionised one with one that is mixed already; with an energy equation the energy is mixed again at every call (C76).
* `IonisingRadiationEOS.cpp:121`: the temperature of ionised isothermal gas is that of neutral gas (C76).
* `Hydrodynamics.cpp:82`: polytropic and barotropic2 gas with ionising stars is accepted and then refused by the constructor (C76).
* `OpacityTable.h:155-194`, `OpacityTable.cpp:179`, `EnergyRadws.cpp:560`: rows are looked up with the density although the table holds its logarithm; if no density of the table exceeds the unit of density every particle gets the densest row (C77).
* `OpacityTable.cpp:107-133`: a file with more lines than announced is written beyond the arrays; the destructor does not free eos_dens and eos_temp (C77).
* `RadiativeFB.cpp:159`: with two central stars the disc is heated by the second only (`=` for `+=`) (C77).
* `EnergyRadws.cpp:129`: gas with a thermal time below 1e-20 or negative keeps its energy (C77).
* `EnergyRadws.cpp:209, 284`: temp_amb is shared by the threads of the parallel loops and written in them (read, not modelled).
* `EnergyRadws.cpp:435-472`: gas that cools searches downwards from the lowest temperature instead of from its own; unless its equilibrium lies next to the lowest temperature the search leaves the table, and the assertion does not see it (C78).
* `EnergyRadws.cpp:489-502, 577-629`: gas whose equilibrium lies above the table, or that is at its last entry, is looked up beyond the table (C78).
* `EnergyRadws.cpp:673-681`: the ends of the interval are weighted the wrong way round (C78).
* `EnergyRadws.cpp:302`: the predicted momentum of a step is m dt instead of m a dt (C78).
* `RiemannSolver.cpp:482-487`: the face without mass flux moves with the velocity, and feels the pressure, sampled on the ray of the old face instead of those between the waves; for a supersonic face these are the undisturbed state's (C79).
* `RiemannSolver.cpp:177-182, 540-552`: where a vacuum opens all fluxes are zero, also where gas crosses the face ahead of the wave (C79).
* `RiemannSolver.cpp:204, 233-256`: the velocity between the waves is that of the pressure before the last step of the iteration; pressures below 1e-20 are raised to it (C79, bounds).
* `Tree.cpp:946-970`: in directions in which two cells overlap, the sum of their half widths less the distance of the centres is added to the distance between the cells, and the product with the velocity difference to the speed of approach, so cells are skipped whose particles limit the step (C80).
* `Tree.cpp:934-938`: only the periodic image of the cell nearest by its centre is looked at (C80).
* `OctTree.cpp:497-515, 555-556`, `DomainBox.h:53-58`: the velocity box is never reset and starts at (-big_number, big_number), so in two and three dimensions neighbouring cells may never be opened (C80).
* `MfvIntegration.cpp:32-34`: with neither hydrodynamics nor self-gravity the step is 9.9e20 whatever the acceleration by stars or an external potential (C80).
* `GhostNeighbours.hpp:526-543`: DomainCellProxy assigns hbox.max twice and hbox.min never (not used by the modelled calls).
* `Tree.cpp:946-970`: the speed of approach is bounded along the line between the nearest corners only; pairs in other directions may approach faster (seen by reading; C80 proves one dimension).
* `SimUnits.cpp:1039-1042`: the unit of luminosity is computed as mass over time, without the square of the velocity; with the default units luminosities are more than 4000 times too small (C81).
* `SimUnits.cpp:392`: a gigajoule is 1e12 J (C81).
* `SimUnits.cpp:952`: the cgs unit of pressure is 0.1 of the SI value instead of 10 (C81).
* `SimUnits.cpp:961-962`: the size of the force unit is looked up under `forceinunit` and `forceoutunit`, which do not exist; forces labelled dyn are in newton (C81).
* `SimUnits.cpp:1060-1073`: magnetic field, charge and current density get the unit names of the opacity and no scale; asking for their default unit raises (C81).
* `SimUnits.cpp:839`: `ReadInputUnits` is never set, so the units named in a snapshot are replaced by the output units and its values are misread (C81).
* `SphSnapshot.cpp:590-592`: the potential is handed to Python as an energy, off by the mass unit (C81).
* `MeshlessFVSimulation.cpp:331`: `rho_sink` is divided by outscale/outcgs instead of their product; wrong unless the density unit is g_cm3 (C81).
* `GradhSphSimulation.cpp:279-280`: `/m.outscale*m.outcgs` multiplies by the cgs factor (not modelled).
* `SimUnits.cpp:1135, 1141`: the table of scaling factors (call commented out) prints times and accelerations with the mass unit.
* `Supernova.cpp:138`: the velocity of gas in the sphere is replaced instead of added to; moving gas loses its kinetic energy and momentum (C82).
* `Supernova.cpp:131-144`: v0 and u0 are not changed, so particles in the middle of their step lose kick and heat at the next advance (C82).
* `Supernova.cpp:88-107`: ghosts are in the neighbour list and take part of the energy with them (C82).
* `Supernova.cpp:116-119`: the energy is divided for particles of the mean mass; with other masses the energy put in is not the one asked for (C82).
* `Supernova.cpp:108-119`: with no particle in the sphere and less mass than one particle nothing happens and the energy is lost (C82).
* `Hydrodynamics.cpp:142-145`: 1.2 times an Nhydromax of at most 4 is truncated to the same number and the new particle is written outside the array (C82).
* `SupernovaDriver.cpp:240`: after the last entry of the table the entry behind it is read (C82); also a table with more rows than announced, with fewer rows, or a run in fewer than three dimensions.
* `SupernovaDriver.cpp:217`: a missing table leaves the pointers unset, and the wrong stream is closed (not modelled).
* In the meshless code the kick is not put into the conserved variables (not modelled).
* `Render.cpp:224-225, 396-397`: pixels are evaluated at their lower left corner; the centres computed in `rgrid` are never used, so images are displaced by half a pixel (C83).
* `Render.cpp:217`: columns in three dimensions divide by the cube of the smoothing length although the integrated kernel needs the square; particles with small smoothing lengths weigh too much (C83).
* `Render.cpp:248, 417`: pixels with a weight of at most 1e-10 are not normalised (C83).
* `Render.cpp:231`: images of one-dimensional runs are blank (C83).
* `Ic.cpp:751-752`: the two shifts of a hexagonal lattice in space are added instead of taken modulo 2; for every size a particle lies outside of the box, by half its radius (C84).
* `Ic.cpp:731`: the hexagonal lattice in one dimension starts half a radius from the wall, as in the plane, and ends one and a half radii from the other (C84).
* `Ic.cpp:721`: hexagonal lattices that are not normalised leave 13 per cent of the box empty in the plane (C84).
* `Ic.cpp:646`: normalised lattices put particles outside of a box whose edges do not fit; callers do not check (C84).
* `Ic.cpp:824`: CutSphere does not end if more particles lie at the centre than are wanted (C84).
* `Ic.cpp:836`: CutSphere does not subtract the centre of the box before scaling; right only for boxes about the origin, the only ones passed (C84).
* `Ic.cpp:603-613`: Addr2Sphere ignores the centre it is given (all callers pass the origin) and writes behind the array in one and two dimensions (C84).
* `EvrardCollapseIc.cpp:98-103`: the positions already contain the radius, which is multiplied in again; right only for radius 1 (C84).

## Testing the theorems against wrong programs

`seeded/LOG.jsonl` has one line per deliberately wrong model: the definition edited, the edit, the claim it breaks, the theorems
whose proofs then fail, and the theorems that were tightened because the wrong model still passed. A theorem counts as failing
when its own proof or that of a lemma it uses no longer compiles. Edits marked as repairs make a `_refuted` theorem fail.
