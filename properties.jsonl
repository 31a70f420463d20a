{"id": "C01", "title": "Insertion sorts return a sorted permutation of their input", "statement": "After InsertionSort(N,list,values) (and InsertionSortIds(N,ids,keys)) the value array is in non-decreasing order, it is a permutation of the input, each id still travels with the value it was passed with, and entries with equal values keep their original relative order. Elements beyond the first N are untouched.", "quantifier": "every array length and every content, including duplicates, already sorted and reversed arrays", "why_tests_cant": "Sorting is exercised by tests only on a few small arrays; the claim is about every length and every permutation of every multiset, including stability, which sink accretion order depends on.", "anchors": ["src/Headers/InlineFuncs.h:InsertionSort", "src/Headers/InlineFuncs.h:InsertionSortIds", "src/Nbody/Sinks.cpp:AccreteMassToSinks"]}
{"id": "C02", "title": "KD-tree median selection partitions the particle ids", "statement": "QuickSelect(left,right,jpivot,k) terminates, only permutes the ids stored between left and right (nothing is lost, duplicated, or moved outside the range), returns the k-coordinate of the particle stored at jpivot, and on return every id stored left of jpivot has a k-coordinate not larger, and every id stored right of it a k-coordinate not smaller, than the one stored at jpivot.", "quantifier": "every range, every pivot position, every assignment of coordinates (including ties) and every initial id order", "why_tests_cant": "Pivot-dependent loops behave differently on adversarial orders and ties; no finite set of arrays covers them, and termination is a statement about all runs.", "anchors": ["src/Tree/KDTree.cpp:QuickSelect", "src/Tree/KDTree.cpp:DivideTreeCell"]}
{"id": "C03", "title": "Tree cell numbering makes every walk visit each cell once, in pre-order, and end", "statement": "For a KD-tree of any depth, the links written by CreateTreeStructure are such that following 'open if an inner cell, otherwise next' from the root visits every cell exactly once in increasing order and stops exactly at Ncell; skipping a cell skips exactly its sub-tree; leaf cells are numbered consecutively and c2g/g2c are mutually inverse.", "quantifier": "every tree depth and every choice, at every cell, of opening or skipping it", "why_tests_cant": "The number of possible open/skip decisions is exponential in the number of cells and the depth is unbounded.", "anchors": ["src/Tree/KDTree.cpp:CreateTreeStructure", "src/Tree/KDTree.cpp:ComputeTreeSize"]}
{"id": "C04", "title": "KD-tree build assigns every particle to exactly one leaf and never overfills a leaf", "statement": "After the tree has been sized for N particles and divided, the leaf cells' particle lists are a partition of the N particles, each leaf holds at most Nleafmax particles, and the particles of a cell's first child have split-coordinates not larger than those of its second child.", "quantifier": "every particle count, leaf capacity, particle placement and choice of split dimension", "why_tests_cant": "Tests see particular particle counts; the off-by-one cases (N not a multiple of the leaf number) occur only for particular combinations of N and depth.", "anchors": ["src/Tree/KDTree.cpp:ComputeTreeSize", "src/Tree/KDTree.cpp:CreateTreeStructure", "src/Tree/KDTree.cpp:DivideTreeCell"]}
{"id": "C05", "title": "Gather neighbour search is exact or reports overflow, and never overruns its buffer", "statement": "For a tree whose cells bound their particles, the gather search around a point returns either -1 or exactly the live particles strictly within the search radius, each once; while it runs it never writes past the end of the caller's buffer; and it returns -1 only when the buffer was nearly full.", "quantifier": "every well-formed tree, every particle placement, radius, and buffer size", "why_tests_cant": "A missed neighbour changes densities silently; completeness over all tree shapes and placements is not a finite check.", "anchors": ["src/Tree/Tree.cpp:ComputeGatherNeighbourList", "src/Headers/Tree.h"]}
{"id": "C06", "title": "Gravity tree walk counts every particle exactly once", "statement": "For any multipole acceptance decision, the interaction lists produced by the gravity walk for a cell - neighbours, direct-sum particles, and accepted cells - together account for every particle of the tree exactly once, so the total mass seen by the force calculation equals the total mass in the tree.", "quantifier": "every well-formed tree, every opening criterion and every geometry", "why_tests_cant": "Double counting or omission appears only for particular combinations of overlapping, near and far cells; the space of combinations is unbounded.", "anchors": ["src/Tree/Tree.cpp:ComputeGravityInteractionAndGhostList", "src/Tree/Tree.cpp:ComputeStarGravityInteractionList"]}
{"id": "C07", "title": "Oct-tree division keeps every particle in exactly one child and respects child boxes", "statement": "Dividing an oct-tree cell distributes its linked list of particles over the child cells so that each particle is in exactly one child, relative order is kept, every particle lies inside the box of its child, and building stops with an error instead of writing out of bounds when the maximum depth is reached.", "quantifier": "every cell content, every dimensionality 1-3, every depth", "why_tests_cant": "In-place linked-list surgery fails only for particular orders; depth exhaustion needs coincident particles.", "anchors": ["src/Tree/OctTree.cpp:BuildTree"]}
{"id": "C08", "title": "Pruned trees sent to other MPI nodes keep valid links", "statement": "CreatePrunedTreeForMpiNode, when it does not report overflow, yields a tree in which cell links are again in pre-order and stay inside the pruned tree, whose leaves partition the particles of the full tree, and which never exceeds the given maximum number of cells.", "quantifier": "every full tree, pruning level pair, acceptance decision and buffer size", "why_tests_cant": "Pointer renumbering errors only show for particular shapes of pruned subtrees.", "anchors": ["src/Tree/Tree.cpp:CreatePrunedTreeForMpiNode"]}
{"id": "C09", "title": "Box overlap tests decide geometric intersection", "statement": "BoxOverlap returns true exactly when the two closed boxes share a point (in every dimensionality), is symmetric, and never misses a particle inside both boxes; ParticleInBox assigns a particle on the common face of two adjacent boxes to exactly one of them; FractionalBoxOverlap returns the fraction of the second box's volume lying in the first, between 0 and 1.", "quantifier": "all boxes and points", "why_tests_cant": "Degenerate, touching and nested boxes form a continuum of boundary cases.", "anchors": ["src/Headers/InlineFuncs.h:BoxOverlap", "src/Headers/InlineFuncs.h:ParticleInBox", "src/Headers/InlineFuncs.h:FractionalBoxOverlap", "src/Headers/DomainBox.h:BoxesOverlap"]}
{"id": "C10", "title": "Nearest periodic image is the nearest image", "statement": "For two points inside the periodic domain the periodic correction returns a separation congruent to the original modulo the box size in each periodic direction, unchanged in non-periodic directions, with each periodic component at most half the box in absolute value, and no other periodic image is nearer.", "quantifier": "all boxes, all mixtures of boundary types and all pairs of positions", "why_tests_cant": "Positions are a continuum and the corner cases (exactly half a box) are measure-zero for random tests.", "anchors": ["src/Headers/DomainBox.h:NearestPeriodicVector", "src/Headers/GhostNeighbours.hpp:NearestPeriodicVector"]}
{"id": "C11", "title": "Boundary treatment keeps particles inside the box and preserves their motion", "statement": "After boundaries are applied, a particle that left the box by less than one box length is back inside; at a periodic boundary its velocity, acceleration and displacement since the start of its step are unchanged and its position changes by a multiple of the box size; at a mirror or wall boundary exactly the normal components of velocity and acceleration (current and saved) change sign and applying the reflection twice is the identity; open boundaries change nothing.", "quantifier": "all positions, velocities and mixtures of boundary types in 1-3 dimensions", "why_tests_cant": "Corner cases (leaving through two faces at once, exactly on the face) are a continuum.", "anchors": ["src/Common/Integration.cpp:CheckBoundaries"]}
{"id": "C12", "title": "Periodic cell overlap test never misses an image", "statement": "For cells inside the domain, the periodic overlap test returns true exactly when one box overlaps some periodic image of the other, for every mixture of periodic and non-periodic directions.", "quantifier": "all boxes and all mixtures of boundary types", "why_tests_cant": "Mixed boundaries with specific offsets are needed to expose the wrong cases, and uninitialised reads may pass any number of test runs.", "anchors": ["src/Headers/GhostNeighbours.hpp:PeriodicBoxOverlap", "src/Headers/GhostNeighbours.hpp:PeriodicDistanceCorrection"]}
{"id": "C13", "title": "Ghost construction yields exactly the mirror images and fits its buffer", "statement": "Constructing all ghosts of a particle yields the particle (or its nearest periodic image) followed by every distinct combination of reflections in the mirror boundaries, each once, and never more than the advertised maximum number; constructing scatter-gather ghosts reads only memory that is still valid.", "quantifier": "all positions, all combinations of mirror boundaries on the six faces, all buffer capacities", "why_tests_cant": "Use-after-reallocation depends on vector capacity history and normally reads stale but plausible data.", "anchors": ["src/Headers/GhostNeighbours.hpp:ConstructAllGhosts", "src/Headers/GhostNeighbours.hpp:ConstructGhostsScatterGather", "src/Headers/GhostNeighbours.hpp:MaxNumGhosts"]}
{"id": "C14", "title": "Pair interactions are computed exactly once", "statement": "When pair-wise interactions are computed once and applied to both partners, for any two distinct real particles exactly one of the two encounters is selected, whichever particle is treated first; mirror images are always selected.", "quantifier": "every pair of particles, levels and ids", "why_tests_cant": "The number of level/id combinations and processing orders is unbounded.", "anchors": ["src/Headers/NeighbourManager.h:_first_appearance", "src/Headers/NeighbourManager.h:TrimNeighbourLists"]}
{"id": "C15", "title": "Neighbour lists are split without loss and built without reading out of bounds", "statement": "Splitting a cell's candidate neighbours for one particle puts each gravitating candidate (other than the particle itself) in exactly one of the hydro, smoothed-gravity or direct-gravity lists, keeps every particle within either kernel in the hydro list when its type interacts, and building the candidate list as the tree walks do reads only existing entries and loses no candidate in range.", "quantifier": "every candidate list, mask and geometry", "why_tests_cant": "Out-of-bounds reads are undefined behaviour that usually goes unnoticed; loss appears only for rare combinations of masks and distances.", "anchors": ["src/Headers/NeighbourManager.h:TrimNeighbourLists", "src/Headers/NeighbourManager.h:_EndSearch"]}
{"id": "C16", "title": "Block timesteps keep all particles synchronised with the integer clock", "statement": "Through any sequence of steps with any timestep requests, every particle's step is a power of two that divides its start time, no particle is stepped past the end of its own step, all particles finish together at the resynchronisation point, and a particle's new step never exceeds the step it requested.", "quantifier": "all histories of requested timesteps, any number of particles and levels", "why_tests_cant": "The hierarchy evolves over unbounded histories; violations need particular sequences of level changes.", "anchors": ["src/Common/Simulation.cpp:ComputeBlockTimesteps", "src/Hydrodynamics/SphLeapfrogKDK.cpp"]}
{"id": "C17", "title": "A timestep's level gives a step no longer than the timestep", "statement": "ComputeTimestepLevel(dt,dt_max) returns a non-negative level such that dt_max/2^level is less than dt, and, whenever the level is positive, dt is at most dt_max/2^(level-1), so the step is never shortened by more than a factor of two.", "quantifier": "all positive timesteps", "why_tests_cant": "The timestep ratio is a continuum; exact powers of two are the boundary cases.", "anchors": ["src/Headers/InlineFuncs.h:ComputeTimestepLevel"]}
{"id": "C18", "title": "Timestep limiter only shortens steps at points of the hierarchy", "statement": "When a neighbour has a much smaller step, the limiter ends the current step of a particle early only at a moment that is a multiple of the new step, never lengthens a step, leaves the level difference within the allowed maximum for every particle it changes, and leaves all other particles alone; it never divides by zero.", "quantifier": "all particle states and neighbour levels", "why_tests_cant": "Requires particular phase relations between clock and levels.", "anchors": ["src/Hydrodynamics/SphLeapfrogKDK.cpp:CheckTimesteps", "src/Hydrodynamics/SphLeapfrogDKD.cpp:CheckTimesteps"]}
{"id": "C19", "title": "Kick-drift-kick integration is second order exact and reversible", "statement": "One full KDK step moves a particle under constant acceleration exactly along the analytic parabola, a step forward followed by a step with reversed velocity returns to the initial state for any position-dependent acceleration, and particles that do not finish their step are only predicted (their saved start state is unchanged).", "quantifier": "all states, all step lengths, all acceleration fields", "why_tests_cant": "Exactness over the reals for all states is an algebraic identity, not testable by sampling in floating point.", "anchors": ["src/Hydrodynamics/SphLeapfrogKDK.cpp:AdvanceParticles", "src/Hydrodynamics/SphLeapfrogKDK.cpp:EndTimestep", "src/Hydrodynamics/SphLeapfrogDKD.cpp"]}
{"id": "C20", "title": "Sink accretion conserves mass, momentum, centre of mass and angular momentum", "statement": "Accreting gas onto a sink leaves unchanged the total mass, linear momentum, centre of mass and total angular momentum (orbital plus the sink's internal angular momentum) of the gas-plus-sink system, whether particles are swallowed whole or in part.", "quantifier": "any number of gas particles, any masses, positions, velocities and any accretion rate or smooth-accretion settings", "why_tests_cant": "Conservation is an exact identity over all states; finite tests see one configuration with rounding.", "anchors": ["src/Nbody/Sinks.cpp:AccreteMassToSinks"]}
{"id": "C21", "title": "Each gas particle is accreted by at most one sink, under every thread schedule", "statement": "In the assignment phase, whatever the order in which threads process the sinks, each gas particle ends up assigned to at most one sink that encloses it, and a particle enclosed by at least one sink ends up assigned to one.", "quantifier": "all interleavings of threads, all overlapping sinks", "why_tests_cant": "Interleavings cannot be enumerated by running.", "anchors": ["src/Nbody/Sinks.cpp:AccreteMassToSinks"]}
{"id": "C22", "title": "Sink creation respects limits and conserves mass", "statement": "Creating a sink moves the particle's mass, position and velocity to the new star, kills the particle, never exceeds the allocated or requested number of sinks, and leaves inverse smoothing length equal to the reciprocal of smoothing length.", "quantifier": "every candidate particle set and limit", "why_tests_cant": "Several candidates in the same step are needed to exceed the limit; counts are unbounded.", "anchors": ["src/Nbody/Sinks.cpp:SearchForNewSinkParticles", "src/Nbody/Sinks.cpp:CreateNewSinkParticle"]}
{"id": "C23", "title": "M4 kernel functions are mutually consistent", "statement": "For the M4 kernel: value, derivative, h-derivative, gravitational force, potential and potential h-derivative satisfy W'=w1, omega=-(ndim*W+s*W'), force=-dpot/ds, zeta=pot+s*dpot/ds at every s; all are continuous; W is non-negative, non-increasing, zero outside the kernel range; outside the range gravity is Newtonian.", "quantifier": "every separation and dimensionality", "why_tests_cant": "Identities between functions over a continuum.", "anchors": ["src/Headers/SmoothingKernel.h:M4Kernel"]}
{"id": "C24", "title": "Quintic kernel functions are mutually consistent", "statement": "The same identities hold for the quintic kernel, including zeta=pot+s*dpot/ds used for the gravitational h-correction.", "quantifier": "every separation and dimensionality", "why_tests_cant": "Identities between functions over a continuum.", "anchors": ["src/Headers/SmoothingKernel.h:QuinticKernel"]}
{"id": "C25", "title": "Gaussian kernel functions are mutually consistent", "statement": "The same identities hold for the Gaussian kernel inside its range, including omega=-(ndim*W+s*W') used for the grad-h terms, and outside the range gravity is Newtonian.", "quantifier": "every separation and dimensionality", "why_tests_cant": "Identities between functions over a continuum.", "anchors": ["src/Headers/SmoothingKernel.h:GaussianKernel"]}
{"id": "C26", "title": "Tabulated kernels never index outside their table", "statement": "For every finite non-negative double separation, looking up a tabulated kernel of the standard resolution reads an existing table entry (or returns the value for outside the range), in IEEE-754 double arithmetic.", "quantifier": "every non-negative double precision separation", "why_tests_cant": "There are 2^62 doubles; the failing one, if any, is adjacent to the kernel range.", "anchors": ["src/Headers/SmoothingKernel.h:tableLookup", "src/Headers/SmoothingKernel.h:tableLookupSqd", "src/Hydrodynamics/TabulatedKernel.cpp:TabulatedKernel"]}
{"id": "C27", "title": "Grad-h SPH forces conserve momentum, angular momentum and energy", "statement": "Summed over any set of particles that interact mutually, the hydrodynamical accelerations of the grad-h scheme give zero net force and torque and the rate of change of kinetic plus internal energy is zero, with and without artificial viscosity and conductivity.", "quantifier": "any number of particles, any positions, velocities, masses, densities and energies", "why_tests_cant": "An exact identity over the reals for all configurations.", "anchors": ["src/GradhSph/GradhSph.cpp:ComputeSphHydroForces", "src/GradhSph/GradhSph.cpp:ComputeSphHydroGravForces"]}
{"id": "C28", "title": "Artificial viscosity only heats", "statement": "The viscous contribution to the rate of change of internal energy is never negative and acts only on approaching pairs.", "quantifier": "all pairs of particles", "why_tests_cant": "Sign statement over a continuum of states.", "anchors": ["src/GradhSph/GradhSph.cpp:ComputeSphHydroForces"]}
{"id": "C29", "title": "The viscosity switch behaves the same with and without self-gravity", "statement": "For the same particle state the time derivative of the viscosity parameter is the same whether or not self-gravity is switched on.", "quantifier": "all particle states", "why_tests_cant": "Test problems compare runs with gravity to runs without only qualitatively.", "anchors": ["src/GradhSph/GradhSph.cpp:ComputeSphHydroForces", "src/GradhSph/GradhSph.cpp:ComputeSphHydroGravForces"]}
{"id": "C30", "title": "A parameter file is read back exactly as recorded", "statement": "Parsing a line 'key = value' (or with ':' and comment) sets exactly the named parameter to the value with surrounding blanks ignored and leaves every other parameter unchanged; unknown names change nothing; comments and blank lines change nothing; parameters recorded to file and read back give the same values.", "quantifier": "every line of text and every parameter table", "why_tests_cant": "Text inputs are unbounded.", "anchors": ["src/Common/Parameters.cpp:ParseLine", "src/Common/Parameters.cpp:SetParameter", "src/Common/Parameters.cpp:RecordParametersToFile"]}
{"id": "C31", "title": "Random numbers are reproducible, never stuck and within range", "statement": "The xorshift generator's state map is a bijection on 64-bit words, so a non-zero seed never reaches the all-zero state and the sequence never becomes constant; floating random numbers lie in [0,1); Gaussian deviates have the requested mean and width.", "quantifier": "every 64-bit seed and every number of draws", "why_tests_cant": "2^64 seeds and unbounded draws.", "anchors": ["src/Headers/RandomNumber.h:XorshiftRand"]}
{"id": "C32", "title": "Snapshots are numbered consecutively and not lost", "statement": "Along any run, snapshot files are numbered consecutively without reuse, a snapshot is written at the first opportunity after each output time, and the next output time advances by exactly the output interval per snapshot.", "quantifier": "all sequences of step times", "why_tests_cant": "Run histories are unbounded.", "anchors": ["src/Common/Simulation.cpp:Output"]}
{"id": "C33", "title": "A crash at any point leaves a usable restart", "statement": "After the first snapshot has been completed, at every crash point the restart file names a completely written snapshot.", "quantifier": "every crash point in every run history", "why_tests_cant": "Crash points between system calls cannot be enumerated by tests on the running code.", "anchors": ["src/Common/Simulation.cpp:Output", "src/Common/Simulation.cpp:RestartSnapshot"]}
{"id": "C34", "title": "Status flags are independent of each other", "statement": "Setting or clearing one status flag changes the answer for that flag only; a boundary particle flagged as periodic or mirror is recognised as such for every direction and side; reset clears everything.", "quantifier": "every flag word and every flag", "why_tests_cant": "2^32 flag words times flag pairs.", "anchors": ["src/Headers/Flags.h:type_flag"]}
{"id": "C35", "title": "Duplicate-id checks find every duplicate", "statement": "VerifyUniqueIds accepts a list exactly when all ids are in range and distinct.", "quantifier": "all lists of ids", "why_tests_cant": "Depends on order of ids; unbounded.", "anchors": ["src/Headers/InlineFuncs.h:VerifyUniqueIds"]}
{"id": "C36", "title": "Matrix inversion and rotation helpers are exact", "statement": "InvertMatrix returns the inverse of every invertible 1x1, 2x2 and 3x3 matrix; rotation by Euler angles preserves lengths and dot products of all vectors and has determinant one.", "quantifier": "all matrices and angles", "why_tests_cant": "Algebraic identities over the reals.", "anchors": ["src/Headers/InlineFuncs.h:InvertMatrix", "src/Headers/InlineFuncs.h:EulerAngleMatrix"]}
{"id": "C37", "title": "Creating particles never writes beyond allocated storage", "statement": "Creating a new particle grows the storage whenever it is full so that the particle is always stored within the allocated array and existing particles are kept.", "quantifier": "all current sizes and histories of creation", "why_tests_cant": "Growth by a factor fails only at particular small sizes.", "anchors": ["src/Hydrodynamics/Hydrodynamics.cpp:CreateNewParticle", "src/Hydrodynamics/Hydrodynamics.cpp:CreateBoundaryGhostParticle"]}
{"id": "C38", "title": "Removing dead particles keeps exactly the live ones", "statement": "After dead particles are deleted, the particle array contains exactly the particles that were alive, each once, and all counters agree.", "quantifier": "every arrangement of dead and live particles", "why_tests_cant": "In-place compaction depends on the arrangement.", "anchors": ["src/Headers/Hydrodynamics.h:DoDeleteDeadParticles"]}
{"id": "C39", "title": "Packed data survive a message", "statement": "Unpacking bytes in the order in which they were appended returns the original values and consumes the buffer exactly; displacement arrays computed from counts give disjoint adjacent blocks.", "quantifier": "all sequences of records and all count arrays", "why_tests_cant": "Unbounded sequences.", "anchors": ["src/Headers/InlineFuncs.h:append_bytes", "src/Headers/InlineFuncs.h:unpack_bytes", "src/Headers/InlineFuncs.h:compute_displs"]}
{"id": "C40", "title": "Table look-up returns the closest entry", "statement": "getClosest / getClosestIndex on a non-empty sorted table return an existing entry whose distance to the requested value is minimal.", "quantifier": "every sorted table and value", "why_tests_cant": "Continuum of values; end points and ties.", "anchors": ["src/Headers/InlineFuncs.h:getClosest", "src/Headers/OpacityTable.h"]}
{"id": "C41", "title": "After stocking, every tree cell describes exactly its live particles", "statement": "After the tree has been built and then re-stocked any number of times while particles move, change and die, every cell's particle count, bounding boxes, bounding sphere, total mass, centre of mass and quadrupole moment are those of the particles below it, dead particles have disappeared from the tree, and every particle that stayed alive is still in it exactly once.", "quantifier": "every particle set, every number of re-stockings, every history of movements and deaths", "why_tests_cant": "Stale cell data only matter after particular histories of deaths and moves; the moments are real-number identities over sets of any size.", "anchors": ["src/Tree/KDTree.cpp:StockTree", "src/Tree/KDTree.cpp:StockCellProperties", "src/Tree/KDTree.cpp:BuildTree"]}
{"id": "C42", "title": "Gravity of gas on stars counts every particle once and the list construction ends", "statement": "For every star position and smoothing length the star's tree walk either reports overflow or returns lists that account for every gas particle exactly once, with all particles in kernel range in the neighbour list; and the caller's loop that retries after an overflow eventually succeeds.", "quantifier": "every tree, star position, smoothing length and buffer size", "why_tests_cant": "Whether the retry loop ends depends on the exact fill of the last leaf relative to the buffer; a run that hits the bad case hangs.", "anchors": ["src/Tree/Tree.cpp:ComputeStarGravityInteractionList", "src/Tree/HydroTree.cpp:UpdateAllStarGasForces"]}
{"id": "C43", "title": "The stored step length of a particle is the length of its step", "statement": "Whenever a particle starts a step, and until that step ends, the step length stored with it (dt), which the integrators use for the end-of-step velocity and energy corrections and the sinks for the accretion rate, equals the physical time between the start and the end of the step.", "quantifier": "every history of timestep requests, level changes, limiter actions and configurations", "why_tests_cant": "A wrong stored length only degrades the order of the integration of a few particles for a few steps; no run fails.", "anchors": ["src/Common/Simulation.cpp:ComputeBlockTimesteps", "src/Hydrodynamics/SphLeapfrogKDK.cpp:CheckTimesteps", "src/Hydrodynamics/SphLeapfrogKDK.cpp:EndTimestep"]}
{"id": "C44", "title": "Artificial conductivity moves heat from hot to cold", "statement": "With artificial conductivity switched on, the extra heating rate of a particle due to a neighbour has the sign of the neighbour's specific internal energy minus its own, and it vanishes when the two do not approach each other.", "quantifier": "all particle pairs with physical values, all kernels that decrease outwards, all viscosity and conductivity options", "why_tests_cant": "A sign error in one option shows only as slow unphysical heat flow at contact discontinuities.", "anchors": ["src/GradhSph/GradhSph.cpp:ComputeSphHydroForces", "src/GradhSph/GradhSph.cpp:ComputeSphHydroGravForces"]}
{"id": "C45", "title": "The gravitational potential counts every particle once", "statement": "The potential stored for a particle after the force computation is the sum over all particles, itself included, of the softened potential each of them produces at its position, each particle counted exactly once.", "quantifier": "all particles and neighbour lists", "why_tests_cant": "A double counted term shifts potential and total energy by a configuration-dependent amount without changing any force.", "anchors": ["src/GradhSph/GradhSphTree.cpp:UpdateAllSphForces", "src/GradhSph/GradhSph.cpp:ComputeSphHydroGravForces", "src/GradhSph/GradhSph.cpp:ComputeSphGravForces"]}
{"id": "C46", "title": "A particle knows the shortest timestep among its neighbours", "statement": "After the force computation the stored neighbour level (levelneib) of a particle is the largest timestep level among the particles it interacts with, so the timestep limiter sees every neighbour with a much shorter step.", "quantifier": "all neighbour lists and levels", "why_tests_cant": "A missed neighbour only matters when a strong shock runs into it.", "anchors": ["src/GradhSph/GradhSph.cpp:ComputeSphHydroForces", "src/GradhSph/GradhSph.cpp:ComputeSphGravForces", "src/GradhSph/GradhSphTree.cpp:UpdateAllSphForces"]}
{"id": "C47", "title": "Hydrodynamical forces do not depend on the units", "statement": "Expressing all particle quantities in different units of length, mass and time multiplies the computed accelerations, heating rates, velocity divergence and viscosity rate by exactly the powers of the unit factors that their dimensions demand.", "quantifier": "all particles, neighbour lists, unit factors and options", "why_tests_cant": "Every run uses one set of units; a dimensionally inconsistent term cannot be told from a different coefficient.", "anchors": ["src/GradhSph/GradhSph.cpp:ComputeSphHydroForces"]}
{"id": "C48", "title": "A new sink does not overlap an existing one", "statement": "When gas turns into a sink, the new sink's accretion sphere overlaps that of no sink that existed before and of no sink created in the same call, in every sink radius mode.", "quantifier": "all gas and sink states, all radius modes and parameters", "why_tests_cant": "Overlap needs a second dense core close to a sink in the same step; runs with one radius mode cannot show the others.", "anchors": ["src/Nbody/Sinks.cpp:SearchForNewSinkParticles", "src/Nbody/Sinks.cpp:CreateNewSinkParticle"]}
{"id": "C49", "title": "Accretion does not depend on the thread schedule and, without smooth accretion, takes everything", "statement": "For a given state the gas swallowed and the resulting sinks are the same for every assignment of sinks to threads and every interleaving, and without smooth accretion every live gas particle inside a sink at the end of the sink's step is swallowed.", "quantifier": "all states, all numbers of threads and schedules", "why_tests_cant": "A schedule is one of very many; single-threaded tests show none of the differences, and a lost particle is one among millions.", "anchors": ["src/Nbody/Sinks.cpp:AccreteMassToSinks"]}
{"id": "C50", "title": "The point search covers real and ghost particles and respects its buffer", "statement": "GetGatherNeighbourList returns every live real and ghost particle within the search radius, or -1 if its buffer is too small; it writes nothing outside the buffer, and enlarging the buffer does not change a complete answer.", "quantifier": "all trees, ghosts, positions, radii and buffer sizes", "why_tests_cant": "The overflow happens only if one of the two trees fills the buffer; with the usual buffer sizes small tests never reach it.", "anchors": ["src/Tree/HydroTree.cpp:GetGatherNeighbourList", "src/Tree/Tree.cpp:ComputeGatherNeighbourList"]}
{"id": "C51", "title": "The size assumed for an exchanged pruned tree is enough", "statement": "Before pruned trees are exchanged each process posts receives sized by the tree's GetMaxCellNumber for the pruning level. The promise is that a pruned tree built with that maximum level never has more cells than this, so the receive is not truncated.", "quantifier": "all trees, all pruning levels, all domain boxes", "why_tests_cant": "needs MPI runs in which the tree is opened everywhere down to the maximum pruning level; the shipped tests use one process", "anchors": ["src/Headers/KDTree.h:GetMaxCellNumber", "src/Headers/OctTree.h:GetMaxCellNumber", "src/Tree/HydroTree.cpp:BuildPrunedTree"]}
{"id": "C52", "title": "No cell within reach of another process is kept back", "statement": "When the hydrodynamical forces are shared between processes, every active cell some of whose particles have a possible neighbour (in either smoothing length, over all periodic replicas) on another process is in the list exported to that process; a cell is exported only because of a populated leaf of that process's pruned tree; the number of exported particles is the sum of the exported cells' active particles; nothing is exported to the process itself.", "quantifier": "all pruned trees, all active cells, all numbers of processes, periodic and open domains", "why_tests_cant": "needs MPI runs with particles just inside the range of a cell at a domain edge; a missed cell only makes some neighbour sums slightly too small", "anchors": ["src/Tree/Tree.cpp:ComputeHydroTreeCellOverlap", "src/Tree/HydroTree.cpp:UpdateHydroExportList"]}
{"id": "C53", "title": "Matter on other processes acts exactly once", "statement": "For gravity between processes, for every active cell and every other process, either the cell is exported to that process, or the multipoles used in its place together contain each particle of that process exactly once, all of them are acceptable for the chosen opening criterion and none of the replaced particles is within kernel range; cells collected by an abandoned walk are dropped; nothing is taken from the process itself.", "quantifier": "all pruned trees, active cells, numbers of processes, opening criteria, periodic and open domains", "why_tests_cant": "needs MPI runs; mass counted twice or dropped from far cells changes accelerations by an amount comparable to the accepted multipole error", "anchors": ["src/Tree/Tree.cpp:ComputeDistantGravityInteractionList", "src/Tree/HydroTree.cpp:UpdateGravityExportList"]}
{"id": "C54", "title": "Processes exchange particles without deadlock", "statement": "For every number of MPI processes that the program accepts, the league calendar gives every process in every turn one partner different from itself whose partner it is, and every pair of processes meets in exactly one turn; the blocking sends and receives of the load-balancing exchange driven by it never deadlock however MPI schedules them and whichever sends it buffers, they end after a bounded number of steps, and every process has then received from every other process exactly the message meant for it.", "quantifier": "all accepted numbers of processes, all message contents, all schedules and buffering decisions", "why_tests_cant": "needs MPI runs at many process numbers; a wrong calendar shows as a hang that depends on message sizes and on the MPI library", "anchors": ["src/Mpi/MpiControl.cpp:CreateLeagueCalendar", "src/Mpi/MpiKDTreeDecomposition.cpp:LoadBalancing"]}
{"id": "C55", "title": "Load balancing moves every particle to the process owning its domain and loses none", "statement": "After the load-balancing exchange every process holds exactly those of its live particles that it finds in no other process's domain, together with the particles the other processes found in its domain; the exchange ends for every accepted number of processes and every message schedule; no array is overrun; if the domains do not overlap no particle is lost or doubled; if the domains fill the box of all particles, every particle ends in the domain of its process.", "quantifier": "all numbers of processes, all domains (also if processes disagree on them), all particle sets with a stocked tree, all message schedules", "why_tests_cant": "needs MPI runs in which particles cross domains; a lost or doubled particle among millions changes the total mass by less than the printed accuracy, and one at the edge of the box only occurs for special positions", "anchors": ["src/Mpi/MpiKDTreeDecomposition.cpp:LoadBalancing", "src/Tree/HydroTree.cpp:FindMpiTransferParticles", "src/Tree/Tree.cpp:FindBoxOverlapParticles", "src/Headers/Hydrodynamics.h:DoDeleteDeadParticles"]}
{"id": "C56", "title": "New domains fill the box and share the work evenly", "statement": "Load balancing divides the box of all particles among the processes: for every accepted number of processes the search for the divisions ends, the domains fill the box without gaps or overlaps, every division lies strictly inside the box it divides and leaves on either side half of the work to one part in a thousand, and all processes find the same divisions.", "quantifier": "all accepted numbers of processes, all work distributions, all old divisions, all particle boxes", "why_tests_cant": "needs MPI runs over all work distributions; a search that does not end shows as a hang in rare configurations, and domains that differ between processes show only later as lost or doubled particles", "anchors": ["src/Mpi/MpiKDTreeDecomposition.cpp:LoadBalancing", "src/Tree/HydroTree.cpp:FindLoadBalancingDivision", "src/Mpi/MpiTree.cpp:CreateTreeStructure", "src/Mpi/MpiTree.cpp:UpdateBoundingBoxes", "src/Tree/Tree.cpp:ComputeWorkInBox"]}
{"id": "C57", "title": "After accretion all processes know the same sinks", "statement": "After UpdateSinksAfterAccretion every process has, for every sink, the properties (masses, energies, accretion rate, angular momentum, star position, velocity, acceleration, mass and timestep) that the process owning the sink computed, the owner's copy is unchanged, and no buffer is read or written outside its size; this holds whenever sinks may have moved by accreting.", "quantifier": "all numbers of processes and sinks, all domains, all sink states after an accretion step, all contents of uninitialised buffers", "why_tests_cant": "needs an MPI run in which a sink near the edge of a domain, or outside all gas, accretes; the overrun corrupts memory silently", "anchors": ["src/Mpi/MpiControl.cpp:UpdateSinksAfterAccretion", "src/Nbody/Sinks.cpp:AccreteMassToSinks", "src/Hydrodynamics/SphSimulation.cpp:MainLoop"]}
{"id": "C58", "title": "Changes to ghosts of other processes' particles reach the particles themselves", "statement": "In a run on several processes the ghosts that a process holds of other processes' particles are exact copies of them, both when created and after every update, and when a process changes such a ghost (its sinks accrete from it, its dust heats it) the change reaches the one real particle on its own process behind that ghost, and no other particle is changed; what several processes do to copies of one particle adds up, so that no mass or heat is lost or created.", "quantifier": "all numbers of processes, all export lists, all numbers and chains of boundary ghosts, all sets of changed ghosts", "why_tests_cant": "needs MPI runs in which a sink overlaps the domain of another process or the edge of a periodic box; the wrong particle loses its mass silently", "anchors": ["src/Mpi/MpiControl.cpp:SendReceiveGhosts", "src/Mpi/MpiControl.cpp:UpdateGhostParticles", "src/Mpi/MpiControl.cpp:DoUpdateMpiGhostParents", "src/Hydrodynamics/Ghosts.cpp:SearchGhostParticles", "src/Nbody/Sinks.cpp:AccreteMassToSinks", "src/Common/Dust.cpp:UpdateAllDragForces"]}
{"id": "C59", "title": "The meshless finite-volume scheme keeps mass, momentum and energy", "statement": "In the meshless finite-volume scheme whatever a particle loses to a neighbour in an exchange the neighbour gains, however the cells are spread over threads, whichever of the two is active and however different their steps are: the sums over all particles of mass, momentum and energy (what they had at the beginning of their steps and what they were credited since) change only by what goes into walls and by forces and cooling, over any sequence of exchanges, ends of steps, predictions and checks of steps; and when steps end together the masses, velocities and energies shown are these sums.", "quantifier": "all numbers of dimensions and particles, all neighbour lists, threads and schedules, all Riemann solvers, limiters and kernels, all step lengths, all histories", "why_tests_cant": "conservation tests run one problem with one limiter and equal tolerances; a loss at changes of level or between threads looks like truncation error", "anchors": ["src/MeshlessFV/MfvMuscl.cpp:ComputeGodunovFlux", "src/MeshlessFV/MeshlessFVTree.cpp:UpdateGodunovFluxes", "src/MeshlessFV/MfvIntegration.cpp:AdvanceParticles", "src/MeshlessFV/MfvIntegration.cpp:EndTimestep", "src/MeshlessFV/MfvIntegration.cpp:CheckTimesteps", "src/MeshlessFV/MeshlessFV.cpp:UpdateArrayVariables"]}
{"id": "C60", "title": "It does not matter which of two neighbours computes their exchange", "statement": "The exchange of mass, momentum and energy between two neighbours in the meshless finite-volume scheme is computed once, by whichever of the two comes first in the loops; both get the same credits and rates as if the other had computed it, including the distance over which mass was moved that enters the work of gravity.", "quantifier": "all pairs of particles, steps, kernels and limiters, the HLLC solver in all its modes with any equation of state, with and without viscosity", "why_tests_cant": "which particle computes depends on indices, which no test permutes; a wrong sign for one role averages out in symmetric problems", "anchors": ["src/MeshlessFV/MfvMuscl.cpp:ComputeGodunovFlux", "src/Headers/RiemannSolver.h:ComputeFluxes", "src/Headers/RiemannSolver.h:ComputeViscousFlux"]}
{"id": "C61", "title": "A gas moving as a whole behaves like the gas at rest", "statement": "Adding one velocity to all particles changes nothing in what neighbours exchange in the meshless finite-volume scheme except for the motion itself: relative to a particle the same mass, momentum and heat arrive, with and without viscosity.", "quantifier": "all pairs of particles, velocities, steps and kernels, all limiters that depend on velocity differences only, the HLLC solver in all its modes", "why_tests_cant": "needs runs of the same problem in many frames with viscosity; an error grows with the speed of the frame and looks like numerical heating", "anchors": ["src/MeshlessFV/MfvMuscl.cpp:ComputeGodunovFlux", "src/Headers/RiemannSolver.h:solve", "src/Headers/RiemannSolver.h:ComputeViscousFlux"]}
{"id": "C62", "title": "The HLLC solver returns the flux of a flow that obeys the conservation laws", "statement": "For any two gas states the HLLC solver returns what a flow of states separated by three waves carries through the moving face, each wave satisfying the jump conditions of mass, momentum and energy; equal states give their exact flux, contact discontinuities and shear flows are resolved exactly, exchanging the sides changes nothing; and in the mode without mass flux no mass passes a face that moves with the contact and the energy passing is the work of the pressure there.", "quantifier": "all dimensions, all states of positive density and pressure, all normals and face velocities, all equations of state with positive sound speed", "why_tests_cant": "test problems cover a handful of states; wave speed orderings that break the solver occur only for extreme ratios", "anchors": ["src/Headers/RiemannSolver.h:HllcRiemannSolver", "src/Headers/RiemannSolver.h:HLL_Speeds", "src/Headers/RiemannSolver.h:compute_central_wave_speed", "src/Headers/RiemannSolver.h:add_RH_flux"]}
{"id": "C63", "title": "What a sink takes from a gas particle is gone from it (meshless scheme)", "statement": "In the meshless finite-volume scheme, when a sink takes part of the mass of a gas particle, the particle has from then on so much less mass, the corresponding momentum less and the same velocity and temperature, whatever step lengths sink and gas have; so gas and sinks together keep their mass at all times and no gas particle can give more than it has.", "quantifier": "all particles, amounts taken, step lengths and histories", "why_tests_cant": "needs smooth accretion with sinks on shorter steps than the gas; tests look at sink masses, not at gas temperature and mass after accretion", "anchors": ["src/Headers/MeshlessFV.h:AccreteMassFromParticle", "src/Nbody/Sinks.cpp:AccreteMassToSinks", "src/MeshlessFV/MfvIntegration.cpp:AdvanceParticles", "src/MeshlessFV/MfvIntegration.cpp:EndTimestep"]}
{"id": "C64", "title": "Forces move the gas and do not heat it (meshless scheme)", "statement": "In the meshless finite-volume scheme a particle that exchanges nothing with its neighbours and is only accelerated gains velocity according to the acceleration and keeps its internal energy, during a step and at its end.", "quantifier": "all dimensions, masses, velocities, accelerations and step lengths", "why_tests_cant": "the heating is of higher order in the step and drowned by hydrodynamics in test problems; cold supersonic gas in a strong field shows it", "anchors": ["src/MeshlessFV/MfvIntegration.cpp:AdvanceParticles", "src/MeshlessFV/MfvIntegration.cpp:EndTimestep", "src/MeshlessFV/MeshlessFV.cpp:UpdateArrayVariables"]}
{"id": "C65", "title": "Density and smoothing length of an SPH particle fit each other", "statement": "After the density loop of grad-h SPH every active particle has the density obtained by smoothing, over its smoothing length, all particles that count for it, and the smoothing length h obeys h = h_fac (m/rho)^(1/ndim) within the tolerance, unless h is at the least value allowed when there are sinks; such a length is found whenever there is one, and the enlarging of neighbour lists comes to an end.", "quantifier": "all dimensions, kernels of the usual kind, numbers and positions of particles, starting lengths, sink densities and roundings of midpoints", "why_tests_cant": "an iteration with three phases over real numbers; tests use smooth distributions in which the first phase converges", "anchors": ["src/GradhSph/GradhSph.cpp:ComputeH", "src/GradhSph/GradhSphTree.cpp:UpdateAllSphProperties", "src/Headers/Sph.h:h_rho_func"]}
{"id": "C66", "title": "The grad-h factors are those that energy conservation needs", "statement": "The factor 1/Omega and the term zeta stored with a grad-h SPH particle are such that, for every motion of its neighbours and of the stars, the rates of change of its density and of its potential energy are the sums over pairs that the equations of motion use, with the smoothing length following the density.", "quantifier": "all dimensions, kernels, neighbours, stars and velocities", "why_tests_cant": "a statement about derivatives for all motions; tests measure energy errors that are dominated by time integration", "anchors": ["src/GradhSph/GradhSph.cpp:ComputeH", "src/Headers/Sph.h:h_rho_deriv"]}
{"id": "C67", "title": "Only a particle at the bottom of the local potential is marked as such", "statement": "When sinks may form, a particle is marked as minimum of the potential just if no particle within its smoothing kernel lies deeper in the potential.", "quantifier": "all neighbour lists in any order, potentials and lengths", "why_tests_cant": "the mark depends on the order of a neighbour list; tests of sink formation see a single collapsing core", "anchors": ["src/GradhSph/GradhSph.cpp:ComputeH", "src/MeshlessFV/MfvCommon.cpp:ComputeGradients", "src/SM2013/SM2012Sph.cpp:ComputeH"]}
{"id": "C68", "title": "Number density and smoothing length fit each other in the meshless scheme", "statement": "After the density loop of the meshless scheme every particle has the number density obtained by smoothing its neighbours over its smoothing length h, with h = h_fac ndens^(-1/ndim) within the tolerance, its density is mass times number density, and the factors 1/Omega and zeta follow from the neighbours alone.", "quantifier": "all dimensions, neighbour lists, starting lengths and tolerances", "why_tests_cant": "wrong values appear where starting lengths are poor or lengths small in code units, which standard tests avoid", "anchors": ["src/MeshlessFV/MfvCommon.cpp:ComputeH", "src/MeshlessFV/MeshlessFVTree.cpp:UpdateAllProperties"]}
{"id": "C69", "title": "Slope limiters keep values at faces within bounds, keep linear fields, and do not depend on the observer", "statement": "In the meshless scheme the value of a variable extrapolated to the face between a particle and a neighbour lies between the values of the two (tvdscalar), within the values of the particle and its neighbours (scalar, springel2009) or past the value of the particle by at most half the difference (gizmo); densities and pressures stay positive; fields that are linear in position are extrapolated exactly; and a common velocity changes no slope.", "quantifier": "all dimensions, neighbour lists, gradients and values", "why_tests_cant": "overshoots occur only for special arrangements of neighbours around a discontinuity", "anchors": ["src/Headers/SlopeLimiter.h:CellLimiter", "src/Headers/SlopeLimiter.h:ComputeLimitedSlopes", "src/MeshlessFV/MfvMuscl.cpp:ComputeGodunovFlux"]}
{"id": "C70", "title": "Gradients of the meshless scheme are exact for linear fields", "statement": "The gradient computed for a particle in the meshless scheme is exact for variables that are linear functions of position and zero for uniform ones, whatever the arrangement of the neighbours; the matrix used is the inverse of the second moments whenever neighbours lie in all directions; particles whose neighbours lie in a plane are marked, particles with evenly spread neighbours are not; and a common velocity changes nothing.", "quantifier": "one to three dimensions, all neighbour lists, kernels and fields", "why_tests_cant": "tests use near-regular arrangements in which errors of irregular ones do not show", "anchors": ["src/MeshlessFV/MfvCommon.cpp:ComputeGradients", "src/Headers/InlineFuncs.h:InvertMatrix"]}
{"id": "C71", "title": "Forces between stars are the gradient of the potential, their jerks the time derivative, and they conserve momentum, angular momentum and energy", "statement": "The acceleration of a star is the sum over the other stars of the Newtonian (or kernel-softened) attraction, is minus the gradient of the reported potential, the reported jerk is its time derivative along the motion, and so are the second and third derivatives computed at the start; momentum and (unsoftened or softened) angular momentum change are zero, and the total energy is conserved along the motion, for every number of stars.", "quantifier": "all numbers of stars, dimensions, positions, velocities, masses and smoothing lengths, all four schemes", "why_tests_cant": "a wrong derivative only lowers the accuracy, which a test with a fixed tolerance does not notice", "anchors": ["src/Nbody/Nbody.cpp:CalculateDirectGravForces", "src/Nbody/NbodyHermite4.cpp:CalculateDirectSmoothedGravForces", "src/Nbody/NbodyHermite6TS.cpp:CalculateDirectGravForces", "src/Nbody/NbodyHermite6TS.cpp:CalculateAllStartupQuantities", "src/Nbody/NbodyHermite4.cpp:CalculateAllStartupQuantities", "src/Nbody/NbodyLeapfrogKDK.cpp:CalculateDirectSmoothedGravForces"]}
{"id": "C72", "title": "The integration of stars keeps the centre of mass, is as accurate as its order says, obeys the time-step criterion and can be reversed", "statement": "In runs of the stars with one common time step the total momentum and the uniform motion of the centre of mass are kept exactly, the error of one step is of the order of the scheme (leapfrog third, Hermite fifth, sixth-order Hermite seventh, in the step), the step obeys the time-step criterion with the multiplier set by the user, and the leapfrog and the converged time-symmetric schemes retrace their steps when velocities are reversed.", "quantifier": "all numbers of stars, numbers of steps, dimensions, boxes, states and parameters, all four schemes", "why_tests_cant": "the order of a scheme and exact conservation are limits over all step lengths and run lengths", "anchors": ["src/Nbody/NbodySimulation.cpp:MainLoop", "src/Nbody/NbodySimulation.cpp:PostInitialConditionsSetup", "src/Nbody/NbodyHermite4.cpp:AdvanceParticles", "src/Nbody/NbodyHermite4.cpp:CorrectionTerms", "src/Nbody/NbodyHermite4TS.cpp:CorrectionTerms", "src/Nbody/NbodyHermite6TS.cpp:CorrectionTerms", "src/Nbody/NbodyLeapfrogKDK.cpp:CorrectionTerms", "src/Nbody/NbodyHermite4.cpp:Timestep"]}
{"id": "C73", "title": "Reported totals are the sums they are named after, on one process or many, and the reported energy is conserved", "statement": "The mass, momentum, angular momentum, centre of mass, kinetic, thermal and potential energy reported in the diagnostics are those of all living gas particles, stars and sinks; setting the centre-of-mass frame brings its position and velocity to zero and changes no relative position or velocity; the values collected from all MPI processes are those one process with all bodies would report; accelerations and jerks of external potentials are the gradient and its time derivative, and the reported total energy is constant along the motion under the forces computed.", "quantifier": "all numbers of particles, stars, sinks and processes, all states, dimensions up to three, all external potentials", "why_tests_cant": "a test compares the energy at a few times with a tolerance in set-ups without external potentials or with one process; a missing factor there goes unnoticed", "anchors": ["src/Common/SimAnalysis.hpp:CalculateDiagnostics", "src/Common/Simulation.cpp:SetComFrame", "src/Mpi/MpiControl.cpp:CollateDiagnosticsData", "src/Headers/ExternalPotential.h:AddExternalPotential"]}
{"id": "C74", "title": "The nearest-neighbour tree of stars, the sub-systems and the binary orbits found in it are what they claim to be", "statement": "The tree of nearest neighbours is completed for any positions of the stars, is a binary tree in which every star occurs once, and joins stars that are each other's nearest; building sub-systems and searching binaries overruns no array; the main list contains every star exactly once, alone or inside a system, with the same total mass and mass-weighted mean position, velocity and derivatives; every system has the mass, means, energy and crossing time of its parts; a node of two stars whose energy is their own becomes a system, and the orbit recorded for it, if bound, has the energy, semi-major axis, period, eccentricity, mass ratio and angular momentum of the Kepler orbit, and is labelled by its number of stars.", "quantifier": "all numbers, masses, positions, velocities and potentials of stars, dimensions one to three, all values of gpesoft", "why_tests_cant": "a test checks one binary or a small cluster with known hierarchy; that every star is counted once and no list overflows for any hierarchy, and that the loop ends, needs all inputs", "anchors": ["src/Nbody/NbodySystemTree.cpp:CreateNbodySystemTree", "src/Nbody/NbodySystemTree.cpp:BuildSubSystems", "src/Nbody/NbodySystemTree.cpp:FindBinarySystems", "src/Nbody/NbodySystemTree.cpp:ComputeNewBinaryOrbit"]}
{"id": "C75", "title": "Drag between gas and dust damps relative motion exactly and conserves momentum, angular momentum and energy", "statement": "In both schemes and for all drag laws: the drag over a step is the mean of the exact solution of the damping equation with the other forces acting (or differs from it by less than (dt/ts)^4/24 for steps below a thousandth of the stopping time ts), so that no step, however long, reverses or amplifies the velocity relative to the terminal one; with two fluids the momenta of gas and dust given by drag add up to zero (also with periodic images), and so do angular momenta without images; the kinetic energy taken out appears as heat of the gas and is finite; a test particle is compared with the mean of exactly the living gas particles within its kernel range, for a smoothing length that agrees with the number density to the relative tolerance; the meshless particles move with their momentum divided by their mass; at start-up the heating is that of the first step.", "quantifier": "all particle data, numbers of particles and neighbours, images, kernels, drag coefficients, steps and dimensions", "why_tests_cant": "tests run a dusty wave or shock with equal unit-like masses and living particles for some hundred steps; that sums cancel for every configuration, that no step is too long and that no divisor vanishes needs all inputs", "anchors": ["src/Common/Dust.cpp:ComputeDragForces", "src/Common/Dust.cpp:DoInterpolate", "src/Common/Dust.cpp:FindNeibAndDoInterp", "src/Common/Dust.cpp:FindNeibAndDoForces", "src/Common/Dust.cpp:update_particle", "src/Headers/DragLaws.h"]}
{"id": "C76", "title": "Equations of state give energy, pressure, temperature, entropy and speed of sound that belong together", "statement": "For every equation of state a parameter file can choose and every density, energy and place: after the thermal properties of a particle are set, energy, pressure and sound speed are positive (the assertions of the meshless scheme pass), pressure is (gamma-1) rho u, the temperature reported is that of an ideal gas of the given molecular weight, the entropic function A satisfies p = A rho^gamma, and the square of the speed of sound is the derivative of pressure with density (at constant entropy where energy is evolved); energy recovered from pressure at a face, and momentum and total energy there, agree; setting the properties twice changes nothing; barotropic gas passes continuously from isothermal to adiabatic and its pressure rises with density; locally isothermal gas follows the nearest star; ionised gas is never colder than neutral gas and mixtures interpolate; each name of gas_eos and radiation gives the class it names or stops the run.", "quantifier": "all parameter values, particle states, numbers of stars, dimensions and names", "why_tests_cant": "tests use one density scale and mu_bar = 1 and look at flows, not at the relations between the five functions of a class; derivatives and agreement at all densities need a proof", "anchors": ["src/Headers/EOS.h:EOS", "src/Thermal/AdiabaticEOS.cpp", "src/Thermal/IsothermalEOS.cpp", "src/Thermal/LocallyIsothermal.cpp", "src/Thermal/DiscLocallyIsothermal.cpp", "src/Thermal/PolytropicEOS.cpp", "src/Thermal/BarotropicEOS.cpp", "src/Thermal/Barotropic2EOS.cpp", "src/Thermal/IonisingRadiationEOS.cpp", "src/Thermal/MCRadiationEOS.cpp", "src/Hydrodynamics/Hydrodynamics.cpp:Hydrodynamics", "src/GradhSph/GradhSph.cpp:ComputeThermalProperties", "src/MeshlessFV/MeshlessFV.cpp:ComputeThermalProperties"]}
{"id": "C77", "title": "Tabulated gas follows its table, stars heat it by the flux they send, and it relaxes exactly", "statement": "For every opacity file and every particle: the file fills each entry of the table with its own line in code units; a look-up returns the entry nearest in density and energy; pressure, temperature, entropy and speed of sound are those of an ideal gas with the entry's gamma, Gamma1 and molecular weight; the energy found for a pressure returns that pressure; the surroundings' temperature to the fourth power is the sum of the background, the disc law of each central star and the fluxes L/(16 pi sigma d^2) of the other stars; between steps the energy is the exact solution of relaxation to its equilibrium and lies between the two.", "quantifier": "all table sizes and contents, densities, energies, pressures, numbers and positions of stars, time steps", "why_tests_cant": "tests use one table and one star and compare with stored output; a row chosen by density instead of its logarithm still gives smooth results", "anchors": ["src/Common/OpacityTable.cpp:OpacityTable", "src/Headers/OpacityTable.h:OpacityTable", "src/Headers/InlineFuncs.h:getClosestIndex", "src/Thermal/RadwsEOS.cpp", "src/Thermal/RadiativeFB.cpp", "src/Hydrodynamics/EnergyRadws.cpp:EnergyIntegration"]}
{"id": "C78", "title": "Cooling finds the equilibrium temperature and solves the implicit energy equation within the table", "statement": "For every table whose temperatures rise, every heating, column and ambient temperature: the equilibrium temperature returned balances heating and radiative loss to one part in a thousand, or is the ambient or the lowest temperature where that is higher; no look-up leaves the table; the energy starts to change at the rate of its heating and loss; the implicit update returns the loss at a temperature that solves u_new = u + dt h(u_new) to the tolerance; the state it is computed for is the state at the end of the step: momentum follows the forces and internal energy is kept without fluxes; a step removes at most 19/20 of the energy.", "quantifier": "all table sizes, temperatures, opacities constant along a row, heatings, steps and numbers of iterations", "why_tests_cant": "tests run one collapse from one side; whether a search leaves an array depends on where the equilibrium lies relative to the lowest temperature", "anchors": ["src/Hydrodynamics/EnergyRadws.cpp:EnergyFindEquiTemp", "src/Hydrodynamics/EnergyRadws.cpp:EnergyFindEqui", "src/Hydrodynamics/EnergyRadws.cpp:ImplicitEnergyUpdate", "src/Hydrodynamics/EnergyRadws.cpp:EndTimestep", "src/Hydrodynamics/EnergyRadws.cpp:ebalance"]}
{"id": "C79", "title": "The exact Riemann solver solves the Riemann problem and its fluxes are those of the solution", "statement": "For every pair of states of an ideal gas: pressure and velocity between the waves exist and are unique unless the sides part faster than 2(cl+cr)/(gamma-1); the solver returns that pressure to two millionths and that velocity to a millionth of the speeds of the problem, without NaN, and exactly between two rarefactions; the sampled profile solves the equations of Euler and its discontinuities conserve mass, momentum and energy and do not lower entropy; for every direction of a face in one to three dimensions the flux is the flux of the sampled gas in the laboratory, with the transverse velocity of the side the gas comes from; equal states give their own flux; a face of the finite-mass scheme moves with the gas between the waves, feels its pressure and passes no mass; where a vacuum opens the flux is that of the gas that still crosses the face.", "quantifier": "all gamma > 1, densities, pressures, velocities, rays, normals, face velocities; pressures between the waves from 1e-20 to 1e100 for the iteration", "why_tests_cant": "tests compare a handful of shock tubes along the x axis with a tolerance; supersonic faces, odd directions, near vacua and the convergence of the iteration for all states are not sampled", "anchors": ["src/Hydrodynamics/RiemannSolver.cpp:ComputeStarRegion", "src/Hydrodynamics/RiemannSolver.cpp:SampleExactSolution", "src/Hydrodynamics/RiemannSolver.cpp:ComputeFluxes", "src/Hydrodynamics/RiemannSolver.cpp:ComputeRotationMatrices", "src/Hydrodynamics/RiemannSolver.cpp:RotateVector"]}
{"id": "C80", "title": "The conservative limiter gives every particle a time step short enough for every signal that can reach it", "statement": "After ComputeSignalVelocityFromDistantInteractions every active particle has a signal speed no smaller than (c1 + c2 + speed of approach) h / max(distance, h) for every other particle of the domain, and for the images of particles in a periodic domain, in one to three dimensions and with any of the trees; nothing else is changed, no speed is lowered and none is raised beyond what some particle asks for; the walk over a pruned tree of another process asks for export unless no particle of that process asks for more; the time step of the meshless scheme is the smallest of the Courant, viscous and acceleration criteria, so that in one step no signal crosses more than twice the Courant number times its distance.", "quantifier": "all trees, depths, cells, numbers of particles and active particles, positions, velocities, sound speeds, smoothing lengths", "why_tests_cant": "a missed approaching particle shows only as an occasional late time step in rare geometries; tests run a few blast waves and look at the profile", "anchors": ["src/Tree/Tree.cpp:ComputeSignalVelocityFromDistantInteractions", "src/Tree/HydroTree.cpp:UpdateTimestepsLimitsFromDistantParticles", "src/MeshlessFV/MfvIntegration.cpp:Timestep", "src/Tree/OctTree.cpp:StockCellProperties", "src/Headers/GhostNeighbours.hpp:ConstructAllGhosts"]}
{"id": "C81", "title": "Units: every name means what it says, all code units come from one length, mass and time with G = 1, and every conversion keeps the physical value", "statement": "Every accepted unit name has the dimension of its quantity and the size of the product of base units it stands for, and unknown names are refused. After SetupUnits there are one length, one mass and one time with G M T^2 = L^3 such that the code unit of every quantity is the product of powers given by its dimension, on the input and on the output side, so that the laws of gravity, of ideal gases and of motion hold in code units without constants. All conversions (input, output, SI, cgs, any named unit) are inverse to one another and agree on the physical value; cgs values are those of centimetres and grams; the names reported are those of the values; a value written and read back is unchanged; a snapshot in other units is converted; the arrays handed to Python are in the unit reported; the sink density is that of the parameter file; dimensionless runs are not converted.", "quantifier": "all parameter sets, unit names, quantities, values, previous states of the units", "why_tests_cant": "a wrong factor for one quantity or one unit name shows only if that quantity is output in that unit and compared with an independent number; tests run with the default units or without any", "anchors": ["src/Common/SimUnits.cpp:SetupUnits", "src/Common/SimUnits.cpp:SIUnit", "src/Common/SphSnapshot.cpp:ExtractArray", "src/Common/SimulationIO.hpp:ConvertToCodeUnits", "src/MeshlessFV/MeshlessFVSimulation.cpp:ProcessParameters"]}
{"id": "C82", "title": "Supernovae: the mass and energy asked for are put in, at the place and times asked for, and stay", "statement": "A supernova adds as many particles of the mean mass as fit into the injected mass, all inside the injection sphere, and changes no other mass or position and nothing outside the sphere. The thermal energy of the gas rises by exactly its share of the injected energy and the particles hit or added carry the other share as motion straight away from the supernova. The energy stays with the particles over the following steps whatever their timesteps. Making room for new particles never writes outside the arrays. The single driver makes one supernova at the first call after its time; the random driver makes the n-th at the first call after its time; the driver with a table makes all supernovae of the table, in order, none before its time, and goes on without harm after the last.", "quantifier": "all particle sets, neighbour lists, positions, energies, ratios, masses, random numbers, sequences of times, tables", "why_tests_cant": "a supernova is rare and violent: energy lost to ghosts, to particles in the middle of a step, or by unequal masses looks like cooling, and the read past the table happens only after the last entry", "anchors": ["src/Feedback/Supernova.cpp:SupernovaInjection", "src/Feedback/SupernovaDriver.cpp:Update", "src/Feedback/SupernovaDriver.cpp:SilccSupernovaDriver", "src/Hydrodynamics/Hydrodynamics.cpp:CreateNewParticle", "src/Ic/Ic.cpp:AddRandomSphere"]}
{"id": "C83", "title": "Rendered images show the smoothed quantity at every pixel, whatever the order of the particles", "statement": "Every pixel of a slice is the average of the rendered quantity over all particles weighted by volume and kernel at the place of the pixel, although each particle is drawn only on the pixels within its range; every pixel of a column image is the average along the line of sight. Rows run from the top. No pixel exceeds the range of the values, and the order of the particles (the loop is parallel) does not matter. The table of the kernel integrated along a line is the integral, to the accuracy of its 4000 steps, and is never read outside. Images of one-, two- and three-dimensional runs are all of this kind.", "quantifier": "all particle sets, grid sizes, limits, kernels of finite range, orders", "why_tests_cant": "an image is judged by eye: half a pixel of displacement, a wrong weight or faint pixels left unnormalised do not look wrong", "anchors": ["src/Common/Render.cpp:CreateColumnRenderingGrid", "src/Common/Render.cpp:CreateSliceRenderingGrid", "src/Hydrodynamics/TabulatedKernel.cpp:initializeTableLOS", "src/Headers/SmoothingKernel.h:tableLookup"]}
{"id": "C84", "title": "Lattices fill the box they are given, lattice points keep their distance, and spheres cut out of lattices hold at most the number wanted", "statement": "A cubic lattice divides its box into equal cells with one particle at the middle of each, so that the density is uniform up to the walls. No two particles of a hexagonal lattice are closer than twice its radius, in one, two and three dimensions, in space every particle not at the surface touches exactly twelve others, and its particles lie inside the box. CutSphere ends, keeps exactly the points inside one sphere about the centre, never more than wanted (the callers allocated no more), and fewer only if no sphere holds the number wanted. A lattice sphere lies inside the radius asked for about the centre asked for. Random boxes lie inside the box. The stretching of the Evrard sphere gives a mass proportional to the square of the radius, and the sphere of density 1/r^2 one proportional to the radius about the centre given.", "quantifier": "all lattice sizes, boxes, numbers of particles, centres, radii, rotation angles, point sets", "why_tests_cant": "tests run a few lattices of fixed size in boxes that happen to fit; whether the bisection ends for every number and lattice, or whether a particle lies outside for every size, is not seen in any of them", "anchors": ["src/Ic/Ic.cpp:AddCubicLattice", "src/Ic/Ic.cpp:AddHexagonalLattice", "src/Ic/Ic.cpp:CutSphere", "src/Ic/Ic.cpp:AddLatticeSphere", "src/Ic/Ic.cpp:AddRandomBox", "src/Ic/Ic.cpp:Addr2Sphere", "src/Ic/EvrardCollapseIc.cpp:Generate"]}
