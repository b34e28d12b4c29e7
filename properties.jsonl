{"id": "C01", "title": "Configuration lookups ignore letter case and the last assignment wins", "statement": "After reading any ini text, querying a (section, key) pair gives the value of the last assignment whose section and key equal the queried ones up to letter case, and the queried default when there is none; two queries differing only in letter case always answer the same. (Section names without a dot; see C03.)", "quantifier": "every sequence of (section, key, value) assignments and every query", "why_tests_cant": "Tests read a handful of files; the claim ranges over all assignment histories and all spellings.", "anchors": ["src/utils/config/inih/INIReader.cpp: MakeKey, ValueHandler, Get", "src/utils/config/ConfigMap.cpp: ConfigMap::getString"]}
{"id": "C02", "title": "Set-then-get round trip of configuration values", "statement": "After setString/setInteger/setBool on a (section, key), the matching getter returns exactly the value that was set, and every query for a different normalised key answers as before.", "quantifier": "every prior configuration, section, key, value and every other key", "why_tests_cant": "Unbounded set of keys, values and prior contents; interaction between keys is a for-all statement.", "anchors": ["src/utils/config/ConfigMap.cpp: setString, setInteger, setBool, getInteger, getBool"]}
{"id": "C03", "title": "Distinct (section, key) pairs never interfere", "statement": "Two assignments whose sections or keys differ (ignoring case) never overwrite each other. (The flat key section + '.' + name makes this false when a dot occurs in a section or key name; it holds when names contain no dot.)", "quantifier": "all pairs of sections and keys", "why_tests_cant": "Needs a statement over all pairs of strings; a test suite only shows pairs that happen not to collide.", "anchors": ["src/utils/config/inih/INIReader.cpp: MakeKey"]}
{"id": "C04", "title": "Line-level robustness of the ini parser", "statement": "Blank lines and comment lines contribute no assignment; surrounding white space around key and value is irrelevant (false for an indented comment line after an assignment, which replaces the assigned value, and false for white space around a section name, which becomes part of the name); a malformed line does not prevent later lines from being read; the value returned by the parser is the number of the first malformed line and 0 exactly when there is none.", "quantifier": "every text, split into lines, with arbitrary content", "why_tests_cant": "All texts; tests cover a few sample files.", "anchors": ["src/utils/config/inih/ini.cpp: ini_parse_file, rstrip, lskip, find_char_or_comment"]}
{"id": "C05", "title": "Serial and MPI builds read the same configuration from the same file", "statement": "The file-based parser (serial build) and the in-memory parser (MPI build, after broadcast) deliver the same assignments and the same error line. True when every line is shorter than the parser's 200-byte buffer; false for longer lines, which only the file-based parser splits.", "quantifier": "every file content", "why_tests_cant": "The divergence needs a line of at least 199 characters at the right place; tests do not explore line lengths.", "anchors": ["src/utils/config/inih/ini.cpp: ini_parse_file, ini_parse_buffer", "src/utils/config/ConfigMap.cpp: broadcast_parameters"]}
{"id": "C06", "title": "Typed getters fall back to the default exactly on unparsable values", "statement": "getInteger returns the default exactly when the stored text has no leading integer literal (decimal, octal with leading 0, hexadecimal with leading 0x, optional sign and white space) and the numeric value of that literal otherwise; getBool recognises exactly 1/yes/true/on and 0/no/false/off.", "quantifier": "every stored text and default", "why_tests_cant": "All strings.", "anchors": ["src/utils/config/inih/INIReader.cpp: GetInteger", "src/utils/config/ConfigMap.cpp: getBool, getInteger"]}
{"id": "C07", "title": "Linear cell index and cell coordinates are in bijection", "statement": "For either memory layout, mapping a linear index in [0, number of cells) to coordinates and back is the identity, the coordinates are in range, and every in-range coordinate tuple is reached exactly once.", "quantifier": "all positive sizes in 2D and 3D, all indices", "why_tests_cant": "All sizes; off-by-one errors for non-square sizes escape square test grids.", "anchors": ["src/shared/kokkos_shared.h: index2coord, coord2index"]}
{"id": "C08", "title": "Grid geometry derived from the parameters is consistent across process grids", "statement": "Cell size and cell-centre coordinates computed by a rank of an mx x my (x mz) process grid for its local cell coincide with those of the same physical cell in a single-process run of the same total resolution.", "quantifier": "all box bounds, resolutions, process grids and cells", "why_tests_cant": "All decompositions and sizes.", "anchors": ["src/shared/HydroParams.cpp: init, setup_mpi", "src/muscl/HydroInitFunctors2D.h"]}
{"id": "C09", "title": "Ghost cells hold exactly what the selected boundary condition prescribes", "statement": "After the boundary fill, every ghost cell including edges and corners equals the interior cell obtained by applying, per direction, the chosen rule (mirror with the normal velocity, and for MHD the normal field, negated; copy of the nearest interior layer; periodic image), and every interior cell is unchanged.", "quantifier": "all grid sizes at least as large as the ghost width, all ghost widths, all combinations of boundary types on all faces, all array contents, 2D and 3D, hydro and MHD", "why_tests_cant": "The corner cells depend on the composition of up to three fills; combinations of types, sizes and contents are unbounded.", "anchors": ["src/shared/BoundariesFunctors.h: MakeBoundariesFunctor2D, MakeBoundariesFunctor3D, MakeBoundariesFunctor2D_MHD, MakeBoundariesFunctor3D_MHD", "src/shared/SolverBase.cpp: make_boundaries_serial"]}
{"id": "C10", "title": "Boundary fill is memory safe and independent of the thread schedule", "statement": "Every access of the boundary kernels stays inside the allocated array, and the result is the same for every interleaving of the parallel iterations. (Requires at least ghost-width interior cells per direction; with fewer the result depends on the schedule.)", "quantifier": "all sizes, ghost widths, boundary types, thread interleavings", "why_tests_cant": "Schedules cannot be enumerated by tests; a race may never show on the test machine.", "anchors": ["src/shared/BoundariesFunctors.h", "src/shared/SolverBase.cpp: make_boundary"]}
{"id": "C11", "title": "Filling the boundary twice changes nothing", "statement": "A second boundary fill directly after a first one leaves the whole array unchanged.", "quantifier": "all sizes, contents, boundary types", "why_tests_cant": "All contents and type combinations, including corners.", "anchors": ["src/shared/SolverBase.cpp: make_boundaries_serial"]}
{"id": "C12", "title": "Distributed ghost exchange equals the single-process boundary fill", "statement": "If every rank holds its part of a global array, then after the distributed boundary update each rank's local array, ghost cells and corners included, equals the corresponding window of the global array after the single-process fill. (False when a face carries an unknown boundary code, which the serial path treats as periodic.)", "quantifier": "all process grids, local sizes, ghost widths, boundary types, array contents, 2D and 3D", "why_tests_cant": "Process counts, sizes and contents are unbounded; CI rarely runs more than a few ranks.", "anchors": ["src/shared/SolverBase.cpp: make_boundaries_mpi, copy_boundaries, transfert_boundaries_2d, transfert_boundaries_3d, copy_boundaries_back", "src/shared/mpiBorderUtils.h", "src/shared/HydroParams.cpp: setup_mpi"]}
{"id": "C13", "title": "The halo exchange never deadlocks and never mixes up messages", "statement": "For every process grid, including one or two ranks per direction where both neighbours are the same process, every send has exactly one matching receive and each ghost slab receives the slab of the correct side of the correct neighbour.", "quantifier": "all process grids and directions", "why_tests_cant": "Deadlock and mis-matching depend on process counts and timing.", "anchors": ["src/shared/SolverBase.cpp: transfert_boundaries_2d, transfert_boundaries_3d", "src/utils/mpiUtils/MpiComm.h: sendrecv"]}
{"id": "C14", "title": "Every rank advances with the same, globally safe time step", "statement": "After the time-step reduction all ranks hold the same time step, and it equals the minimum of the local ones (then clipped to the end time). (False in a single-precision build, where double values are reduced with the float datatype.)", "quantifier": "all numbers of ranks and local values", "why_tests_cant": "All rank counts and values.", "anchors": ["src/shared/SolverBase.cpp: compute_dt", "src/shared/HydroParams.cpp: setup_mpi data_type"]}
{"id": "C15", "title": "A distributed simulation reproduces the single-process simulation", "statement": "Running any number of steps of the MUSCL hydro scheme on a process grid gives, on every rank, exactly (bit for bit) the window of the single-process result. The MUSCL MHD scheme, in 2D and 3D, does so in exact arithmetic.", "quantifier": "all process grids, sizes, boundary types, initial data, numbers of steps, and any arithmetic", "why_tests_cant": "Unbounded process counts, steps and data; bitwise equality depends on the order of floating-point operations.", "anchors": ["src/muscl/SolverHydroMuscl.h: godunov_unsplit_impl", "src/shared/SolverBase.cpp"]}
{"id": "C16", "title": "Simulated time never exceeds the end time and reaches it", "statement": "The simulated time is non-decreasing, never exceeds tEnd, and when the loop stops either the time is within 1e-14 of tEnd or the step limit was reached.", "quantifier": "all tEnd, step limits and sequences of positive CFL time steps", "why_tests_cant": "All sequences of time steps.", "anchors": ["src/shared/SolverBase.cpp: compute_dt, finished, next_iteration"]}
{"id": "C17", "title": "The run terminates after at most nStepmax steps", "statement": "The main loop performs at most nStepmax iterations, whatever the dynamics.", "quantifier": "all step limits and dynamics", "why_tests_cant": "Termination is a statement about all executions.", "anchors": ["src/shared/SolverBase.cpp: finished, run", "src/main.cpp"]}
{"id": "C18", "title": "Snapshots: numbering is contiguous and the requested cadence is respected", "statement": "Each save uses the next file number; with nOutput > 0 between two periodic snapshots more than tEnd/nOutput of simulated time has elapsed since the start of the current output slot, the initial and final states are always saved, and with nOutput = 0 nothing is saved.", "quantifier": "all runs (sequences of time steps), nOutput, tEnd", "why_tests_cant": "All sequences of time steps.", "anchors": ["src/shared/SolverBase.cpp: should_save_solution, save_solution", "src/main.cpp"]}
{"id": "C19", "title": "The current solution is always in the buffer selected by the iteration parity", "statement": "After any number n of steps the buffer read by output, time-step computation and the next step holds the n-fold application of the scheme to the initial data.", "quantifier": "all numbers of steps and all schemes", "why_tests_cant": "Statement about all iteration counts.", "anchors": ["src/muscl/SolverHydroMuscl.h: godunov_unsplit, save_solution_impl", "src/muscl/SolverMHDMuscl.cpp: godunov_unsplit"]}
{"id": "C20", "title": "Finite-volume update conserves mass, momentum and energy", "statement": "Without gravity, one step changes the total of each conserved variable over the interior exactly by the net flux through the domain faces; with periodic boundaries all totals are invariant (exact arithmetic).", "quantifier": "all grid sizes, data, time steps, Riemann solvers, limiters, 2D and 3D", "why_tests_cant": "Telescoping must hold for every size and every flux value.", "anchors": ["src/muscl/HydroRunFunctors2D.h: UpdateFunctor2D", "src/muscl/HydroRunFunctors3D.h: UpdateFunctor3D"]}
{"id": "C21", "title": "Implementation variants of the hydro solver are interchangeable", "statement": "implementationVersion 0 (fused flux computation) and 1 (stored slopes, direction by direction) produce the same interior state for any arithmetic, gravity included. (True in 2D and in 3D without gravity; false in 3D with gravity, where variant 1 omits the predictor on one state along z.)", "quantifier": "all sizes, data, parameters, any arithmetic", "why_tests_cant": "Bitwise equality over all inputs.", "anchors": ["src/muscl/SolverHydroMuscl.h: godunov_unsplit_impl", "src/muscl/HydroRunFunctors2D.h: ComputeAndStoreFluxesFunctor2D, ComputeSlopesFunctor2D, ComputeTraceAndFluxes_Functor2D", "src/muscl/HydroRunFunctors3D.h"]}
{"id": "C22", "title": "Every accepted implementation version advances the solution", "statement": "Each implementationVersion value that parameter reading accepts (0, 1, 2) actually performs a time step. (False for 2 with the hydro solvers: no kernel is executed, time advances over frozen data.)", "quantifier": "all data", "why_tests_cant": "Tests only use the versions with test files.", "anchors": ["src/shared/HydroParams.cpp: setup", "src/muscl/SolverHydroMuscl.h: godunov_unsplit_impl"]}
{"id": "C23", "title": "Hydro kernels are memory safe and independent of the thread schedule", "statement": "In one hydro step all array accesses are in bounds and the final state is the same for every interleaving of the iterations of each parallel loop, for any arithmetic.", "quantifier": "all sizes, data, parameters, interleavings", "why_tests_cant": "Schedules and sizes are unbounded.", "anchors": ["src/muscl/HydroRunFunctors2D.h", "src/muscl/HydroRunFunctors3D.h"]}
{"id": "C24", "title": "A uniform flow stays uniform", "statement": "If all cells (ghosts included) hold the same admissible state and there is no gravity, one step leaves every cell unchanged.", "quantifier": "all admissible states, sizes, time steps, consistent Riemann solvers, limiters", "why_tests_cant": "All states.", "anchors": ["src/muscl/HydroBaseFunctor2D.h", "src/muscl/HydroRunFunctors2D.h", "src/shared/RiemannSolvers.h"]}
{"id": "C25", "title": "Slope limiter never creates new extrema", "statement": "For slope types 1 and 2 the limited slope is zero at local extrema, has the sign of the neighbouring differences otherwise, is bounded by twice (type 2) or once (type 1) the smaller one-sided difference, and the reconstructed face values lie between the neighbouring cell values.", "quantifier": "all triples of cell values", "why_tests_cant": "All real triples.", "anchors": ["src/muscl/HydroBaseFunctor2D.h: slope_unsplit_hydro_2d_scalar, slope_unsplit_hydro_2d", "src/muscl/HydroBaseFunctor3D.h"]}
{"id": "C26", "title": "Every configured slope type yields defined slopes", "statement": "For every integer slope_type that can be configured, reconstruction uses only initialised values. (False for values outside 0, 1, 2 in several kernels, and for 0 in the MHD kernels.)", "quantifier": "all integers", "why_tests_cant": "Undefined behaviour may go unnoticed in tests.", "anchors": ["src/muscl/HydroBaseFunctor2D.h: slope_unsplit_hydro_2d", "src/muscl/MHDBaseFunctor2D.h: slope_unsplit_hydro_2d", "src/shared/HydroParams.cpp"]}
{"id": "C27", "title": "Primitive conversion floors density and pressure and inverts the conservative form", "statement": "The conversion always yields density >= smallr and pressure >= density*smallp; on states above the floors it recovers exactly the primitive state from which the conservative state was built.", "quantifier": "all conservative states", "why_tests_cant": "All real states, including invalid ones.", "anchors": ["src/muscl/HydroBaseFunctor2D.h: computePrimitives, eos", "src/muscl/HydroBaseFunctor3D.h", "src/mood/MoodBaseFunctor.h", "src/sdm/SDMBaseFunctor.h"]}
{"id": "C28", "title": "The time step satisfies the CFL condition in every cell", "statement": "The computed time step dt satisfies dt*(vx/dx + vy/dy (+ vz/dz)) <= cfl for the wave speeds of every interior cell, and is positive and attained by some cell.", "quantifier": "all data and sizes", "why_tests_cant": "All data; a maximum over all cells in any reduction order.", "anchors": ["src/muscl/HydroRunFunctors2D.h: ComputeDtFunctor2D", "src/muscl/HydroRunFunctors3D.h: ComputeDtFunctor3D", "src/muscl/SolverHydroMuscl.h: compute_dt_local"]}
{"id": "C29", "title": "One step only looks at the numerical stencil", "statement": "The new value of a cell depends only on the old values of cells at distance at most 2 in each direction, so ghost width 2 suffices; in particular data farther away has no influence within one step.", "quantifier": "all data, cells and sizes", "why_tests_cant": "A for-all non-interference statement.", "anchors": ["src/muscl/HydroRunFunctors2D.h", "src/muscl/HydroRunFunctors3D.h"]}
{"id": "C30", "title": "The hydro scheme treats the coordinate axes alike", "statement": "Exchanging the x and y axes of the data (and velocity components, grid sizes, spacings) commutes with one step in exact arithmetic.", "quantifier": "all data, sizes, parameters", "why_tests_cant": "All data.", "anchors": ["src/muscl/HydroRunFunctors2D.h", "src/muscl/HydroBaseFunctor2D.h: trace_unsplit_2d_along_dir"]}
{"id": "C31", "title": "Gravity source term keeps internal energy", "statement": "The gravity source step leaves density and internal energy of each cell unchanged: the energy increment equals the change of kinetic energy.", "quantifier": "all data and gravity fields", "why_tests_cant": "All data.", "anchors": ["src/muscl/HydroRunFunctors2D.h: UpdateFunctor (gravity)", "src/muscl/HydroRunFunctors3D.h: Gravity source functor"]}
{"id": "C32", "title": "Riemann solvers are consistent", "statement": "With equal left and right states every solver returns the physical flux of that state.", "quantifier": "all admissible states, solvers approx, LLF, HLL, HLLC (hydro) and LLF, HLL, HLLD (MHD)", "why_tests_cant": "All real states.", "anchors": ["src/shared/RiemannSolvers.h", "src/shared/RiemannSolvers_MHD.h"]}
{"id": "C33", "title": "Riemann solvers respect mirror symmetry", "statement": "Swapping left and right states and negating the normal velocity negates the mass, energy and transverse momentum fluxes and keeps the normal momentum flux.", "quantifier": "all admissible pairs of states", "why_tests_cant": "All real pairs.", "anchors": ["src/shared/RiemannSolvers.h", "src/shared/RiemannSolvers_MHD.h"]}
{"id": "C34", "title": "Supersonic flow is upwinded; contacts are resolved", "statement": "When all wave speeds have the same sign HLL and HLLC return the flux of the upwind state; HLLC keeps an isolated stationary contact exactly.", "quantifier": "all admissible pairs of states satisfying the speed condition", "why_tests_cant": "All real pairs.", "anchors": ["src/shared/RiemannSolvers.h: riemann_hll, riemann_hllc"]}
{"id": "C35", "title": "Every selectable Riemann solver defines the flux", "statement": "For each solver name accepted by the configuration and each solver family (2D/3D hydro, MHD), the flux is defined. (False: HLL in 3D hydro, HLLD in hydro, approx and HLLC in MHD leave the flux uninitialised.)", "quantifier": "all configured names and solver families", "why_tests_cant": "Uninitialised memory may look plausible in tests.", "anchors": ["src/shared/RiemannSolvers.h: riemann_hydro", "src/shared/RiemannSolvers_MHD.h: riemann_mhd", "src/shared/HydroParams.cpp: setup"]}
{"id": "C36", "title": "Constrained transport keeps the discrete divergence of B", "statement": "One MHD step leaves the face-based discrete divergence of B unchanged in every cell whose faces are all updated, hence div B = 0 is preserved there for ever; with periodic boundaries this holds in the whole domain (exact arithmetic). (False in the last layer of cells next to a non-periodic boundary.)", "quantifier": "all sizes, data, EMFs, steps, implementation versions, 2D and 3D", "why_tests_cant": "All data and all steps.", "anchors": ["src/muscl/MHDRunFunctors2D.h: UpdateEmfFunctor2D, ComputeEmfAndUpdateFunctor2D", "src/muscl/MHDRunFunctors3D.h: UpdateEmfFunctor3D, ComputeEmfAndUpdateFunctor3D"]}
{"id": "C37", "title": "MHD implementation variants are interchangeable", "statement": "The stored-flux variant (0) and the atomic-update variant (1) give the same interior state in exact arithmetic, for every order of the atomic updates; the low-memory variant (2) also. (False for variant 2 in 3D.)", "quantifier": "all sizes, data, schedules", "why_tests_cant": "All schedules and data.", "anchors": ["src/muscl/SolverMHDMuscl.cpp: godunov_unsplit_impl", "src/muscl/MHDRunFunctors2D.h", "src/muscl/MHDRunFunctors3D.h"]}
{"id": "C38", "title": "MHD update conserves mass, momentum and energy", "statement": "One MHD step changes the totals of mass, momentum, energy (and in 2D of Bz) only by boundary fluxes; with periodic boundaries they are invariant.", "quantifier": "all sizes, data, solvers", "why_tests_cant": "Telescoping for all sizes.", "anchors": ["src/muscl/MHDRunFunctors2D.h: UpdateFunctor2D_MHD", "src/muscl/MHDRunFunctors3D.h: UpdateFunctor3D_MHD"]}
{"id": "C39", "title": "MHD primitive conversion recovers the cell-centred field", "statement": "For a uniform magnetic field the primitive conversion returns that field and the gas pressure of the state. (False in 2D: the z component is halved.)", "quantifier": "all states", "why_tests_cant": "All states; problem decks with Bz = 0 hide it.", "anchors": ["src/muscl/MHDRunFunctors2D.h: ConvertToPrimitivesFunctor2D_MHD", "src/muscl/MHDBaseFunctor2D.h: constoprim_mhd", "src/muscl/MHDBaseFunctor3D.h"]}
{"id": "C40", "title": "Initial magnetic fields are divergence free", "statement": "The magnetic field set up by the MHD initial conditions has zero discrete divergence.", "quantifier": "all sizes and problem parameters", "why_tests_cant": "All sizes and parameters.", "anchors": ["src/muscl/MHDInitFunctors2D.h", "src/muscl/MHDInitFunctors3D.h"]}
{"id": "C41", "title": "Spectral-difference interpolation and differentiation are exact on polynomials", "statement": "Interpolating from solution points to flux points reproduces every polynomial of degree < N, interpolation from flux points every polynomial of degree <= N, and the derivative matrices return the exact derivative.", "quantifier": "all N and all families of pairwise distinct points", "why_tests_cant": "All polynomials and all orders.", "anchors": ["src/sdm/SDM_Geometry.h: init_lagrange_1d", "src/sdm/SDMBaseFunctor.h: sol2flux_vector, flux2sol_vector, flux2sol_derivative_vector"]}
{"id": "C42", "title": "Spectral-difference scheme preserves constants and telescopes", "statement": "For a uniform state the discrete flux divergence is zero; the integral over a cell of the discrete flux divergence equals the difference of the end-point fluxes, so the scheme is conservative.", "quantifier": "all N, point sets, fluxes", "why_tests_cant": "All polynomials and all orders.", "anchors": ["src/sdm/SDM_Interpolate_Functors.h", "src/sdm/SDM_Flux_Functors.h"]}
{"id": "C43", "title": "Degree-of-freedom maps are injective and dense", "statement": "The solution-point and flux-point numbering of degrees of freedom is a bijection onto an initial segment for every order, direction and number of variables.", "quantifier": "all N, dims, directions, variables", "why_tests_cant": "All orders.", "anchors": ["src/sdm/sdm_shared.h: DofMap, DofMapFlux"]}
{"id": "C44", "title": "Runge-Kutta stages are convex combinations", "statement": "Each stage of the SSP integrators combines earlier stages with non-negative weights summing to one, so steady states are kept, linear invariants conserved and convex bounds of forward Euler inherited. (The tabulated SSP-RK54 weights sum to 1 + 1e-15.)", "quantifier": "all states and operators", "why_tests_cant": "All operators.", "anchors": ["src/sdm/SolverHydroSDM.h: time_int_ssprk2, time_int_ssprk3, time_int_ssprk54", "src/mood/SolverHydroMood.h: time_int_ssprk2, time_int_ssprk3"]}
{"id": "C45", "title": "Cell averages used by limiter and positivity are averages", "statement": "The cell average of a constant is that constant. (False: the Gauss-Chebyshev weights used do not sum to one.)", "quantifier": "all N and constants", "why_tests_cant": "All orders.", "anchors": ["src/sdm/SDM_Limiter_Functors.h: Average_Conservative_Variables_Functor"]}
{"id": "C46", "title": "Monomial enumeration lists every exponent once", "statement": "The monomial map of degree d in n variables lists each exponent vector of total degree at most d exactly once, constant first, in graded order, and has binomial(n+d, n) entries.", "quantifier": "all degrees, dims 2 and 3", "why_tests_cant": "All degrees.", "anchors": ["src/mood/monomials_ordering.h: mono_next_grlex", "src/mood/MonomialMap.h: init_map", "src/mood/Binomial.h", "src/mood/polynomials_utils.cpp: get_number_of_coefficients"]}
{"id": "C47", "title": "Binomial coefficients are correct", "statement": "The compile-time and run-time binomial functions both return the binomial coefficient. (The run-time one overflows int for moderately large arguments.)", "quantifier": "all arguments", "why_tests_cant": "All arguments.", "anchors": ["src/mood/Binomial.h: binomial, binom"]}
{"id": "C48", "title": "MOOD update is conservative and its fallback protects the flagged cells", "statement": "The MOOD update conserves totals; cells whose candidate update has negative density or pressure are flagged and all their faces are recomputed with the first-order flux. (Detection uses the old pressure and only the low-side faces are recomputed; the z fluxes in 3D are scaled with dt/dy.)", "quantifier": "all data and sizes", "why_tests_cant": "All data.", "anchors": ["src/mood/MoodUpdateFunctors.h: ComputeMoodFlagsUpdateFunctor, UpdateFunctor", "src/mood/MoodFluxesFunctors.h: RecomputeFluxesFunctor, ComputeFluxesFunctor"]}
{"id": "C49", "title": "MOOD reconstruction data is computed wherever it is read", "statement": "Every polynomial read by the flux kernel has been computed in the same step. (False in 3D on the low side.)", "quantifier": "all sizes", "why_tests_cant": "All sizes; reads of stale values look plausible.", "anchors": ["src/mood/MoodPolynomialReconstructionFunctors.h", "src/mood/MoodFluxesFunctors.h"]}
{"id": "C50", "title": "Geometric moments and face quadratures are exact", "statement": "Cell moments equal the exact cell averages of monomials; the face quadratures with n points are exact for polynomials of degree <= 2n-1.", "quantifier": "all offsets, exponents, cell sizes", "why_tests_cant": "All polynomials.", "anchors": ["src/mood/GeometricTerms.cpp: eval_moment, eval_hat", "src/mood/SolverHydroMood.h: init_quadrature_2d"]}
{"id": "C51", "title": "Euler eigenvector matrices are inverse of each other", "statement": "Transforming a state to characteristic variables and back is the identity.", "quantifier": "all admissible states", "why_tests_cant": "All states.", "anchors": ["src/shared/EulerEquations.h: cons_to_charac, charac_to_cons"]}
{"id": "C52", "title": "Output files describe exactly the interior cells", "statement": "The VTK file lists each interior cell of each variable exactly once in x-fastest order, ASCII and binary alike, and the declared byte offsets are those of the data blocks.", "quantifier": "all sizes, ghost widths and data", "why_tests_cant": "All sizes.", "anchors": ["src/utils/io/IO_VTK.cpp: save_VTK_2D, save_VTK_3D"]}
{"id": "C53", "title": "Restart reproduces the saved state", "statement": "Saving to HDF5 and loading gives back the same interior data, time and counters for both memory layouts.", "quantifier": "all sizes, data, layouts", "why_tests_cant": "All sizes.", "anchors": ["src/utils/io/IO_HDF5.h: Save_HDF5, Load_HDF5, copy_buffer"]}
{"id": "C54", "title": "The mirror image of a flow evolves into the mirror image", "statement": "Reflecting the initial state (and gravity, and the boundary codes) along x and taking one MUSCL hydro step gives the reflection of the step of the original, for the hll, hllc and llf solvers.", "quantifier": "all sizes, states, boundary codes, schedules, implementation versions 0 and 1", "why_tests_cant": "Holds for all states and sizes; in tests only special flows are compared.", "anchors": ["src/muscl/SolverHydroMuscl.h: godunov_unsplit_impl", "src/shared/RiemannSolvers.h", "src/muscl/HydroRunFunctors2D.h", "src/muscl/HydroRunFunctors3D.h"]}
{"id": "C55", "title": "Reflecting walls let neither mass nor energy through", "statement": "In a domain whose directions are each periodic or closed by two reflecting walls, one MUSCL hydro step without gravity conserves total mass and energy, and the momentum along each periodic direction (hll, hllc, llf).", "quantifier": "all sizes, states, time steps, schedules", "why_tests_cant": "All states; small leaks are hidden by the tolerance of a test.", "anchors": ["src/shared/SolverBase.cpp: make_boundaries_serial", "src/shared/BoundariesFunctors.h", "src/muscl/SolverHydroMuscl.h: godunov_unsplit_impl"]}
{"id": "C56", "title": "The MHD time step satisfies the CFL condition", "statement": "The time step chosen before an MHD step is positive and dt * sum over directions of (|v| + fast magnetosonic speed)/h is at most the configured cfl number in every interior cell, with equality in some cell; the fast speed used is the larger root of the dispersion relation.", "quantifier": "all grids, data and reduction orders", "why_tests_cant": "The maximum is over all cells and every reduction order.", "anchors": ["src/muscl/MHDRunFunctors2D.h: ComputeDtFunctor2D_MHD", "src/muscl/MHDRunFunctors3D.h: ComputeDtFunctor3D_MHD", "src/muscl/SolverMHDMuscl.h: compute_dt_local", "src/muscl/MHDBaseFunctor2D.h"]}
{"id": "C57", "title": "A uniform magnetised flow is steady", "statement": "If every interior cell holds the same conservative state, one MHD step with periodic or outflow boundaries leaves every interior cell unchanged.", "quantifier": "all states, sizes, time steps, variants and schedules", "why_tests_cant": "All states and every interleaving of the atomic updates.", "anchors": ["src/muscl/SolverMHDMuscl.cpp: godunov_unsplit_cpu"]}
{"id": "C58", "title": "The electromotive force solver is consistent and upwind", "statement": "For four equal states the edge electromotive force is -v x B in each of the three orientations, and the branch-free formula of the two dimensional solver equals selection by the signs of the wave speeds.", "quantifier": "all states", "why_tests_cant": "Sixteen sign patterns with real-valued weights.", "anchors": ["src/shared/RiemannSolvers_MHD.h: mag_riemann2d_hlld, compute_emf"]}
{"id": "C59", "title": "The MOOD reconstruction reproduces polynomials of its degree", "statement": "If the cell values are the averages of a polynomial of the configured degree, the reconstructed polynomial equals it everywhere; for arbitrary data it minimises the squared residual over the stencil. (Exact only for degree 1: for higher degree the result is shifted by the difference between the cell average and the centre value, x^2 comes back as x^2 + dx^2/12.)", "quantifier": "all stencils, polynomials, cell sizes, evaluation points", "why_tests_cant": "All polynomials and all aspect ratios; a test on smooth data only sees an order of convergence.", "anchors": ["src/mood/MoodPolynomialReconstructionFunctors.h", "src/mood/Polynomial.h: PolynomialEvaluator", "src/mood/mood_utils.h: fill_geometry_matrix", "src/mood/Matrix.cpp: compute_qr, compute_pseudo_inverse"]}
{"id": "C60", "title": "The MOOD least squares problem is well posed", "statement": "For every stencil and all positive cell sizes the geometry matrix has full column rank, so that the pseudo-inverse exists and is a left inverse; stencils list distinct cells within the ghost width. (The degree-4 stencil in 3D assigns 57 of its 63 declared cells; the six missing ones leave entries of a local array unwritten.)", "quantifier": "all stencils, all cell sizes", "why_tests_cant": "Rank for every aspect ratio is not decidable by running cases.", "anchors": ["src/mood/Stencil.h", "src/mood/Stencil.cpp: init_stencil", "src/mood/mood_utils.h: fill_geometry_matrix", "src/mood/GeometricTerms.cpp"]}
{"id": "C61", "title": "Each accepted MOOD time integrator advances the solution", "statement": "For every integrator the configuration accepts, one step returns a state obtained from the old one by evolving it over dt. (False for ssprk54: the new state equals the old one, whatever the data, while time advances.)", "quantifier": "all data, sizes, orders and integrators", "why_tests_cant": "An integrator that does nothing passes any test with a steady solution; the statement is about every initial state.", "anchors": ["src/mood/SolverHydroMood.h: time_integration_impl, time_int_ssprk54"]}
{"id": "C62", "title": "The MOOD time step never exceeds the CFL step", "statement": "The time step used by the MOOD solver is positive and at most the CFL step. (The rescaled step pow(dt, (degree+1)/3) of SSP-RK3 is larger than the CFL step as soon as the latter exceeds one.)", "quantifier": "all CFL numbers, wave speeds, degrees and integrators", "why_tests_cant": "It depends on the unit of time chosen by the user; tests use one set of units.", "anchors": ["src/mood/SolverHydroMood.h: compute_dt_local", "src/mood/MoodDtFunctor.h"]}
{"id": "C63", "title": "A MOOD step gives the same result under every schedule", "statement": "The state after a MOOD time step depends only on the state before it, not on the order in which the parallel loops run their iterations, for all four integrators in 2D and 3D.", "quantifier": "all sizes, data and interleavings of the iterations of every loop", "why_tests_cant": "Schedules cannot be enumerated by running the program.", "anchors": ["src/mood/SolverHydroMood.h: time_integration_impl", "src/mood/MoodFluxesFunctors.h", "src/mood/MoodUpdateFunctors.h", "src/mood/MoodPolynomialReconstructionFunctors.h"]}
{"id": "C64", "title": "A MOOD step touches only allocated memory", "statement": "Every access of a MOOD time step, under every schedule, is to an element of an array that the constructor has allocated for the chosen integrator.", "quantifier": "all sizes, stencils, data, integrators and schedules", "why_tests_cant": "Out-of-bounds accesses often go unnoticed; sizes and schedules are unbounded.", "anchors": ["src/mood/SolverHydroMood.h: constructor, time_integration_impl", "src/mood/MoodFluxesFunctors.h: RecomputeFluxesFunctor"]}
{"id": "C65", "title": "The MOOD solver keeps a uniform flow uniform", "statement": "A uniform state with open or periodic boundaries is unchanged by a MOOD time step, whatever the order, the stencil and the integrator. (False in 3D, where polynomials that were never computed are used.)", "quantifier": "all sizes, uniform states, stencils, orders and integrators", "why_tests_cant": "It ranges over all uniform states and reconstruction matrices.", "anchors": ["src/mood/SolverHydroMood.h: time_integration_impl", "src/mood/MoodFluxesFunctors.h"]}
{"id": "C66", "title": "The SDM boundary fill puts the right image in every ghost cell", "statement": "After the boundary fill every ghost cell of the spectral difference solver, including the corner cells, holds at each of its points the value of the matching point of its image cell: the wrapped cell for periodic boundaries, the nearest interior cell for outflow, and for a reflecting wall the mirror cell with the points mirrored and the normal momentum negated; interior cells and other arrays do not change.", "quantifier": "all sizes, orders, boundary types on each face, data and schedules", "why_tests_cant": "Corner ghosts depend on the order in which the faces are treated, points on the order of the scheme; sizes and data are unbounded.", "anchors": ["src/sdm/SDM_Boundaries_Functors.h: MakeBoundariesFunctor_SDM", "src/sdm/SolverHydroSDM.h: make_boundaries"]}
{"id": "C67", "title": "The SDM time step obeys the CFL condition", "statement": "The time step of the spectral difference solver times the signal rate (sum over the directions of (c + |u|)/(dx/N), c the speed of sound) is at most the CFL number at every solution point. (False when the speed of sound is below one: the code uses its square.)", "quantifier": "all sizes, orders and admissible states", "why_tests_cant": "The violation depends on the units of the problem; tests use speeds of sound above one.", "anchors": ["src/sdm/SDM_Dt_Functor.h", "src/sdm/SolverHydroSDM.h: compute_dt_local", "src/shared/EulerEquations.h: compute_speed_of_sound"]}
{"id": "C68", "title": "An SDM step depends only on the interior state", "statement": "The interior state after a step of the spectral difference solver depends only on the interior state before it: not on the order in which parallel loops run, nor on the contents of ghost cells, of the scratch arrays or of the Runge-Kutta stages, for all four integrators in 2D and 3D.", "quantifier": "all sizes, orders, data, schedules and initial contents of scratch memory", "why_tests_cant": "Schedules and stale memory cannot be enumerated by running the program.", "anchors": ["src/sdm/SolverHydroSDM.h: time_integration_impl, compute_fluxes_divergence_per_dir", "src/sdm/SDM_Flux_Functors.h", "src/sdm/SDM_Interpolate_Functors.h", "src/sdm/SDM_Update_Functors.h"]}
{"id": "C69", "title": "An SDM step touches only allocated memory", "statement": "Every access of a step of the spectral difference solver, under every schedule, is to an element of an array allocated by the constructor for the chosen integrator.", "quantifier": "all sizes, orders, data, integrators and schedules", "why_tests_cant": "Out-of-bounds accesses often go unnoticed; sizes, orders and schedules are unbounded.", "anchors": ["src/sdm/SolverHydroSDM.h: constructor, time_integration_impl", "src/sdm/SDM_Flux_Functors.h: ComputeFluxAtFluxPoints_Functor"]}
{"id": "C70", "title": "The SDM solver keeps a uniform flow uniform", "statement": "A uniform admissible state, with no flow through reflecting walls, is unchanged by a step of the spectral difference solver, whatever the order, the points and the integrator. (False for SSP-RK54, which multiplies it by 1 + 1e-15.)", "quantifier": "all sizes, orders, uniform states, Riemann solvers and integrators", "why_tests_cant": "It ranges over all uniform states and orders.", "anchors": ["src/sdm/SolverHydroSDM.h: time_integration_impl", "src/sdm/SDM_Flux_Functors.h", "src/sdm/SDM_Geometry.h"]}
{"id": "C71", "title": "Each built-in MHD problem starts with the pressure its parameters prescribe", "statement": "After the initial condition of an MHD test problem is set up, converting the stored conservative state to primitive variables the way the first time step does gives, at every interior cell, the pressure configured for that problem and region.", "quantifier": "all grid sizes, problem parameters, cells, loop schedules, and every built-in MHD problem (blast, implosion, Orszag-Tang, Kelvin-Helmholtz, rotor, field loop)", "why_tests_cant": "the relation must hold for every cell, parameter value and grid size; a test samples a few configurations and compares images", "anchors": ["src/muscl/MHDInitFunctors2D.h: Init*Functor2D_MHD", "src/muscl/MHDInitFunctors3D.h: Init*Functor3D_MHD", "src/muscl/MHDBaseFunctor2D.h: constoprim_mhd"]}
{"id": "C72", "title": "Restart at twice the resolution keeps averages and the zero divergence", "statement": "Loading a state saved with its ghost cells into a run with twice as many cells in every direction gives, on the whole array, the refinement of the saved state: cell averages are repeated in the children, the magnetic field on a face of the parent is repeated and averaged on the new faces; the discrete divergence in a child is that of its parent, and the totals of density, momentum and energy in the domain are unchanged.", "quantifier": "all sizes, ghost widths of at least two, data, memory layouts, 2D and 3D, serial and parallel", "why_tests_cant": "Must hold for every field and size; a uniform test field hides every indexing error.", "anchors": ["src/utils/io/IO_HDF5.h: Load_HDF5::copy_buffer (halfResolution), Load_HDF5_mpi", "src/muscl/SolverMHDMuscl.h: init_restart"]}
{"id": "C73", "title": "Restarting from a result file continues the run", "statement": "If a hydrodynamics or MHD run that reaches its end time is repeated by starting the program again from any HDF5 result file it wrote before the end (restart_enabled), the restarted program takes the same time steps, ends at the same time with the same fields, and rewrites that file and writes all later files with the same numbers, times and contents.", "quantifier": "Every grid, parameter set, scheme version, reduction and loop schedule of both runs, every result file written at an output time, every memory layout of the writing and the reading program", "why_tests_cant": "A test restarts one run from one file; the property is about every file of every run, under every schedule, and about the time and file counters staying in step for arbitrarily many steps.", "anchors": ["src/muscl/SolverHydroMuscl.h: SolverHydroMuscl, init_restart, next_iteration_impl, save_solution_impl", "src/muscl/SolverHydroMuscl.cpp: init", "src/muscl/SolverMHDMuscl.h: SolverMHDMuscl, init, init_restart, save_solution_impl", "src/utils/io/IO_ReadWrite.cpp: load_data_impl", "src/shared/SolverBase.cpp: should_save_solution, finished, next_iteration", "src/main.cpp: main"]}
{"id": "C74", "title": "MHD Riemann solvers are mirror symmetric and upwind in supersonic flow", "statement": "Reflecting both states of an interface in its plane and exchanging them gives the reflected flux (LLF, HLL, HLLD), and when every signal moves in one direction HLL and HLLD return the flux of the upstream state.", "quantifier": "all pairs of states with positive density and pressure, all normal and transverse fields, adiabatic and isothermal", "why_tests_cant": "Which branch of the solver is taken depends on the signs and order of five wave speeds; a wrong order needs a particular ratio of densities and fields, and any finite set of test states leaves most orders untried.", "anchors": ["src/shared/RiemannSolvers_MHD.h:riemann_hll", "src/shared/RiemannSolvers_MHD.h:riemann_llf", "src/shared/RiemannSolvers_MHD.h:riemann_hlld"]}
{"id": "C75", "title": "MHD interface fluxes come from a fan of waves obeying the jump conditions", "statement": "The flux of the HLLD solver is that of a fan of five waves (outer, rotational, contact, rotational, outer) between the two states; each intermediate region is an MHD state of positive density with its own total pressure, and conservation (jump) conditions hold across every wave for all eight variables.  HLL and LLF use two-wave fans with the same property.", "quantifier": "all pairs of states with positive density and pressure outside the degenerate case singled out by the code", "why_tests_cant": "The intermediate states are never returned, only one flux out of six is, and conservation across each wave is an identity in sixteen real inputs.", "anchors": ["src/shared/RiemannSolvers_MHD.h:riemann_hlld", "src/shared/RiemannSolvers_MHD.h:riemann_hll", "src/shared/RiemannSolvers_MHD.h:riemann_llf"]}
{"id": "C76", "title": "Each built-in hydrodynamics problem starts from the state its parameters describe", "statement": "After the initial condition of a hydrodynamics test problem is set up, every cell (ghost cells included) holds the conservative form of the density, velocity and pressure the parameters of that problem describe at the centre of the cell, and the gravity field of the problem where it has one.  (False for several problems and parameter values, which are findings.)", "quantifier": "all grid sizes, process positions, boxes, problem parameters, cells, loop schedules, 2D and 3D, and every built-in problem (implosion, blast, Kelvin-Helmholtz, Gresho, four quadrants, isentropic vortex, Rayleigh-Taylor, rising bubble, disk)", "why_tests_cant": "the relation must hold for every cell, parameter value and grid size; a test samples a few configurations and compares images", "anchors": ["src/muscl/HydroInitFunctors2D.h: Init*Functor2D", "src/muscl/HydroInitFunctors3D.h: Init*Functor3D", "src/shared/problems/*.h", "src/shared/problems/initRiemannConfig2d.h"]}
{"id": "C77", "title": "Problems meant as exact solutions start from one", "statement": "The isentropic vortex, the Gresho vortex, the rotating disk without softening, and the two hydrostatic problems (Rayleigh-Taylor and rising bubble without perturbation) start from states that are exact solutions of the Euler equations with the gravity the problem sets: the steady ones are balanced at every point, the vortex moves with the background flow.", "quantifier": "all points in space, all times, all values of the parameters of the problem with positive density and pressure", "why_tests_cant": "An analytic solution is a statement about all points and times; comparing with a simulation leaves the error of the scheme in.", "anchors": ["src/muscl/HydroInitFunctors2D.h: InitIsentropicVortexFunctor2D, InitGreshoVortexFunctor2D, InitRayleighTaylorFunctor2D, InitRisingBubbleFunctor2D, InitDiskFunctor2D", "src/muscl/HydroInitFunctors3D.h"]}
{"id": "C78", "title": "Every built-in four-quadrant configuration has a single wave at each side", "statement": "For each of the nineteen numbered four-quadrant configurations, every two neighbouring quadrants are joined by one elementary wave of the Euler equations (a shock, a rarefaction or a contact discontinuity), to the accuracy of the four tabulated digits.  (False for numbers 5 and 9, whose table entries differ from the literature.)", "quantifier": "all configuration numbers, all four sides, all cells of all grids for the stored state", "why_tests_cant": "A wrong digit in a table changes only the picture of one configuration; the wave relations are what defines the configurations.", "anchors": ["src/shared/problems/initRiemannConfig2d.h: getRiemannConfig2d", "src/muscl/HydroInitFunctors2D.h: InitFourQuadrantFunctor2D"]}
{"id": "C79", "title": "The Newton Riemann solver returns the flux of a two-shock fan", "statement": "The flux of the default (approximate, Newton) hydrodynamics Riemann solver is the physical flux of the state found at rest in a fan of two discontinuities running into the left and right states: all conservation (jump) conditions hold across both, the pressure behind them is common, never above that of the exact two-shock solution, and the contact moves at the mean of the velocities behind.", "quantifier": "all pairs of states above the floors, all adiabatic indices, 2D and 3D", "why_tests_cant": "The iteration, the side and the kind of wave depend on seven real inputs; a test tries a handful of shock tubes.", "anchors": ["src/shared/RiemannSolvers.h: riemann_approx", "src/shared/HydroParams.cpp: gamma6"]}
{"id": "C80", "title": "The positivity correction of the spectral difference solver restores positive density and pressure and conserves", "statement": "With positivity preserving enabled, every cell whose stored average has a density above the floor and a positive pressure has, after the correction, positive density and pressure at every flux point; values only move towards the average; cells that need no correction are left alone; the average of the cell does not change.  (Two parts are false of the code and are findings: the density floor is undercut, down to negative values, and since the stored averages are not the averages the correction creates mass.)", "quantifier": "all cells of all grids, all polynomial orders, all values at the solution points, all schedules, 2D and 3D", "why_tests_cant": "The correction acts on a minimum over all flux points and on the roots of a quadratic whose coefficients depend on ten real inputs; a test tries a few cells.", "anchors": ["src/sdm/SDM_Positivity_preserving.h: Apply_positivity_Functor_v2", "src/sdm/SDM_Limiter_Functors.h: Average_Conservative_Variables_Functor", "src/sdm/SolverHydroSDM.h: apply_positivity_preserving"]}
{"id": "C81", "title": "The slope limiter of the spectral difference solver limits cell by cell and leaves smooth data alone", "statement": "When limiting is on, every cell that is not at the edge of the array is either left exactly as it is, or replaced by the function with the stored cell average at its centre and, in the characteristic variables, the average slope limited by the differences to the two neighbouring averages (kept below the threshold, smallest of the three when all have one sign, zero otherwise); it is replaced exactly when that changes the slope by more than 1e-10 in the mean.  Fields linear around a cell are not changed and a replaced cell has the stored average.  (The stored averages are too large, ghost cells are left out and the sound speed is wrong, which are findings.)", "quantifier": "all numbers of points, 2D and 3D, grid sizes, states, thresholds, and all interleavings of the cells", "why_tests_cant": "whether the limiter acts depends on signs and orders of many real numbers in a cell and its neighbours; tests look at a few profiles", "anchors": ["src/sdm/SDM_Limiter_Functors.h: Average_Conservative_Variables_Functor, Average_Gradient_Functor, Apply_limiter_Functor", "src/sdm/SolverHydroSDM.h: compute_fluxes_divergence, apply_limiting", "src/shared/EulerEquations.h: cons_to_charac, charac_to_cons, compute_speed_of_sound"]}
{"id": "C82", "title": "The viscous terms of the spectral difference solver add the divergence of the Newtonian stress", "statement": "With viscosity switched on, the rates of momentum and energy should gain the divergence of the Newtonian stress and of its work, density nothing, and a gas at rest nothing at all.  The stress formula at a point is the right one; but it is not what is differentiated.  The code differentiates the interpolated velocities and gradients instead: the result does not depend on the viscosity, density loses the sum of the slopes of the x-velocity, energy those of the y-velocity, the momenta get no force from a uniform velocity gradient, and a gas at rest gets NaN in double precision.  (All findings.)", "quantifier": "all numbers of points, 2D and 3D, grid sizes, viscosities, linear flows and states, and all interleavings of the cells", "why_tests_cant": "the terms pass through a dozen loops and several shared arrays; whether the right array is used shows only in the composed effect, for flows where the two differ", "anchors": ["src/sdm/SolverHydroSDM.h: compute_fluxes_divergence, compute_viscous_fluxes_divergence_per_dir, compute_velocity_gradients", "src/sdm/SDM_Viscous_Flux_Functors.h: ComputeViscousFluxAtFluxPoints_Functor", "src/sdm/SDM_Interpolate_viscous_Functors.h: Interpolate_velocities_Sol2Flux_Functor, Average_component_at_cell_borders_Functor, Interp_grad_velocity_at_SolutionPoints_Functor, Interpolate_velocity_gradients_Sol2Flux_Functor", "src/shared/EulerEquations.h: flux_visc_x, flux_visc_y, flux_visc_z"]}
{"id": "C83", "title": "The initial state of the spectral difference problems is the one their parameters prescribe", "statement": "After the initial condition of a problem ran, every solution point of every cell (ghost cells too) holds the conservative form of the state that the parameters of the problem prescribe at its position: Sod, Shu-Osher, implosion, blast, Kelvin-Helmholtz, four quadrants, Gresho vortex, isentropic vortex, wedge, jet.  The left state of Shu-Osher is behind a Mach 3 shock, the default states of the wedge are those of a shock moving with the default speed.  Findings: four quadrants in 2D are shifted by half a cell and in 3D nothing is written; a moving implosion gets velocities divided by the density; the Kelvin-Helmholtz switch for the plain sine writes nothing; the Gresho drift and the vortex pressure are ignored; the vortex centre at the end time can be put outside of the box; the jet takes another default ratio of specific heats than the solver.", "quantifier": "all problems and parameters, numbers of points, 2D and 3D, grid sizes, processes of the decomposition, solution points, and all interleavings of the cells", "why_tests_cant": "a test compares a few points of a few problems; a shifted point or an ignored parameter shows only for the points and parameters where it matters", "anchors": ["src/sdm/init/*.h", "src/sdm/SolverHydroSDM.h: init, init_sod, init_four_quadrant, init_wedge, init_jet", "src/shared/problems/JetParams.h: JetParams", "src/shared/problems/WedgeParams.h: WedgeParams"]}
{"id": "C84", "title": "The wedge and jet problems of the spectral difference solver have the borders they describe", "statement": "Wedge in 2D at any time: gas behind the shock enters on the left, the gas leaves on the right, the bottom is inflow before the wedge and then a reflecting wall, and at the top every ghost point holds the state behind or before the front according to which side of a line moving with the shock speed along its normal it lies.  Jet in 2D and 3D: the jet state enters through the nozzle (an interval, a disk), the bulk state is held around it, outflow elsewhere.  Interior cells and the other arrays do not change.  Findings: a build with MPI never uses these borders, so no jet ever enters and no front moves; the wedge in 3D has no special borders at all.", "quantifier": "all wedge and jet parameters, times, numbers of points, grid sizes, ghost cells and points, corners, contents of the arrays, and all interleavings of the cells", "why_tests_cant": "a test runs one geometry in one build; a wrong side of the front or a corner shows only at the times and points where the front passes", "anchors": ["src/sdm/SDM_Boundaries_Functors_Wedge.h: MakeBoundariesFunctor_SDM_wedge", "src/sdm/SDM_Boundaries_Functors_Jet.h: MakeBoundariesFunctor_SDM_jet", "src/sdm/SolverHydroSDM.h: make_boundaries_sdm_serial, make_boundaries_sdm_mpi"]}
{"id": "C85", "title": "A netCDF result file holds the global array", "statement": "Saving a 2D hydrodynamics run to netCDF stores, under the four variable names, the global array with its ghost cells: the value at place (x, y) is the value of that cell, whatever the order in which the processes write, as long as the parts of the processes agree where they overlap.  Every place is written.  Findings: 3D and MHD runs have undefined behaviour when they save, because the identifiers of more than four variables are stored in an array of four; arrays in Fortran order (the layout on GPUs) are written with the cells of every part permuted; in distributed runs the places next to a seam between two processes hold the values of the previous step.", "quantifier": "all grids, ghost widths, decompositions, contents of the arrays, memory layouts, orders of the collective writes, steps and times", "why_tests_cant": "a test reads back one file of one decomposition, usually with a single process and one layout; permuted cells and stale seams need a field without symmetries and several processes", "anchors": ["src/utils/io/IO_PNETCDF.h: Save_PNETCDF::save, copy_buffer", "src/utils/io/IO_ReadWrite.cpp: IO_ReadWrite::save_data_impl"]}
{"id": "C86", "title": "MOOD problems start from the prescribed state", "statement": "Starting a run of the MOOD solver stores, in every cell of the arrays including the ghost cells, the conservative form of the state the parameters prescribe at the centre of the cell: implosion, blast, four quadrants, Kelvin-Helmholtz and wedge, in 2D and 3D, whatever the order of the loop.  For the isentropic vortex in 2D the cells hold averages by Gauss quadrature, which are the exact means over the cell for polynomials of degree below twice the number of points in each coordinate.  Findings: in distributed runs every process stores the part of the domain of the first process; the 2D vortex has the energy of a motion along z that it does not have (default velocity 1); the energy of the 3D vortex is read beyond the end of an array; a number of quadrature points outside 1 to 4 is accepted and leaves the state unset; Kelvin-Helmholtz without a perturbation flag stores nothing.", "quantifier": "all grids, spacings, boxes, problem parameters, random numbers in [0,1], quadrature orders, polynomials of the stated degrees, previous contents of the memory, schedules, and positions of the process in the decomposition", "why_tests_cant": "a test looks at one problem on one small grid with a single process; the exactness of the quadrature is a statement about all polynomials, and reads beyond an array often give plausible values", "anchors": ["src/mood/MoodInitFunctors.h: InitImplodeFunctor, InitBlastFunctor, InitFourQuadrantFunctor, InitKelvinHelmholtzFunctor, InitWedgeFunctor, InitIsentropicVortexFunctor", "src/mood/SolverHydroMood.h: SolverHydroMood::SolverHydroMood, init_*"]}
{"id": "C87", "title": "SDM result files show every solution point where it is", "statement": "The VTK files of the spectral difference solver have, for every solution point of every cell, one sub-cell: a rectangle (box in 3D) which contains the position of that point in the domain and carries, for every variable, the value held there.  The sub-cells tile the part of the domain of the process, without gap or overlap.  The announced numbers of points and cells are those of the arrays, and in binary files every array stands at the announced offset after its size in bytes.  The index file of a distributed run names the files the processes write.  Finding: with MPI a debug save does not use its own names for the pieces, so it overwrites the pieces of the normal save of the same step.", "quantifier": "all orders of the scheme with increasing solution points inside the cell, grids, boxes, positions of the process, array contents, 2D and 3D, sizes of a real", "why_tests_cant": "a test compares one small file with a stored one; that sub-cells contain their points and tile the domain is a statement about all positions, and offsets depend on all sizes before them", "anchors": ["src/utils/io/IO_VTK_SDM.h: save_VTK_SDM, write_nodes_location, write_cells_connectivity, write_cells_data, write_appended_binary_data", "src/utils/io/IO_VTK_SDM_shared.cpp: write_pvtu_header", "src/sdm/SolverHydroSDM.h: SolverHydroSDM::SolverHydroSDM"]}
{"id": "C88", "title": "The error functors measure the difference of two SDM solutions", "statement": "Comparing two solution arrays of the spectral difference solver in one variable gives, however the cells are distributed over threads and joined, the sum over all solution points of the interior cells of the absolute difference (NORM_L1) or of its square (NORM_L2).  It is never negative, zero exactly if the solutions agree at all these points, does not depend on ghost cells or other variables, and is the same with the arguments exchanged; NORM_L1 satisfies the triangle inequality.  Finding: NORM_L2 returns the square of the L2 error (it quadruples when the difference doubles); the root is left to the caller.", "quantifier": "all orders, grids, array contents, variables, both norms, 2D and 3D, all distributions and join orders of the reduction, over exact arithmetic", "why_tests_cant": "a test compares one pair of solutions on one back end; that zero means equality everywhere and that no schedule changes the value are statements about all arrays and all reductions", "anchors": ["src/sdm/SDM_Compute_error.h: Compute_Error_Functor_2d, Compute_Error_Functor_3d"]}
{"id": "C89", "title": "The XDMF index describes the result files of the run", "statement": "Each entry of the XDMF index lists exactly the datasets of a result file, in the order of the file, under their names and with their extents, for every combination of the output settings, with one process or several.  At the end of a run the index has, after the entries of earlier numbers (none in a run numbered from 0), one entry for every snapshot written, in order, each referring to the file of that snapshot.  Snapshots with different numbers have different files, also beyond seven digits.  The references name the files written if the output directory is a spelling of the working directory.  Findings: with any other output directory the references miss the directory; the time of an entry is the number of the output, not its time; the index of a single output lists the next one too.", "quantifier": "all grids, process topologies, output settings, directories and prefixes, all histories of a run in every arithmetic, all output numbers", "why_tests_cant": "a test opens one index in one viewer; agreement of sizes, names and numbers with the files is a statement about all settings, topologies and histories", "anchors": ["src/utils/io/IO_HDF5.cpp: writeXdmfForHdf5Wrapper", "src/utils/io/IO_HDF5.h: Save_HDF5::save, Save_HDF5_mpi::save", "src/main.cpp"]}
{"id": "C90", "title": "Borders of the double Mach reflection in the MOOD solver", "statement": "Filling the ghost cells for the 2D problem \"wedge\" at time t gives, under every schedule: on the left the gas behind the shock; on the right a copy of the last cell; below, the gas behind the shock up to the foot of the ramp and a reflecting wall (normal momentum reversed, mirrored cell) after it; above, the gas behind the shock where the front, moved along its normal with the shock speed, has passed, and a copy of the last cell elsewhere.  Corners follow the rule of the lower and upper border.  Interior cells and other memory are unchanged, and at time 0 the front is that of the initial condition.", "quantifier": "all grids at least as wide as the ghost layer, all states, wedge parameters with a front that is neither horizontal nor vertical, all times, all schedules of the four loops, over exact arithmetic", "why_tests_cant": "a test runs one resolution for one time; the rule for every ghost cell at every time under every schedule is a statement about all of them", "anchors": ["src/shared/BoundariesFunctorsWedge.h: MakeBoundariesFunctor2D_wedge", "src/shared/problems/WedgeParams.h: WedgeParams", "src/mood/SolverHydroMood.h: make_boundaries"]}
{"id": "C91", "title": "The solver's name decides a consistent run", "statement": "A parameter file starts a run exactly if it names one of the solvers of the build, by its exact name; different solvers have different names.  The run then has the dimension, the number of variables and the magnetic flag of that solver, and exactly the ghost layers its scheme needs: for MOOD, every offset of the stencil of that dimension and degree stays in the arrays when centred next to the domain, and some offset reaches the last layer.  Any other name, a missing name, or the name of a solver left out of the build ends the program before a solver exists.  Finding: the parameters accept names that cannot be run (the other spelling of SDM, MOOD degrees that are in the table of valid names but not registered).", "quantifier": "all strings in the parameter file, all four combinations of the build options", "why_tests_cant": "a test tries the names it lists; that no other string starts a run, or starts one with parameters of another solver, is a statement about all strings", "anchors": ["src/shared/HydroParams.cpp: HydroParams::setup", "src/shared/SolverFactory.cpp: SolverFactory", "src/shared/SolverFactory.h: create, registerSolver", "src/mood/StencilUtils.h: get_stencilId_from_solver_name, make_valid_solver_names", "src/mood/Stencil.h: get_stencil_ghostwidth", "src/main.cpp"]}
{"id": "C92", "title": "The timing report adds up", "statement": "At the end of a run every timer shows exactly the sum of its measurements: one per step for the time step, the borders and the scheme, one for the whole loop, one per output.  The measurements of a timer do not overlap.  Time step, borders and scheme together take no more than the total, so their percentages do not exceed 100 together (MHD: borders and scheme, the time step being a part of the scheme), and with the outputs they fit into the duration of the run.  The performance figure is the number of cell updates of all processes over the time of the loop.  Findings: the first and the last output are outside of the total, so the percentage of the output can exceed 100; in the MHD solver the time step is counted twice; the performance counts the ghost cells.", "quantifier": "all solvers, all numbers of steps and patterns of outputs, all clock readings that do not decrease, all grids and numbers of processes", "why_tests_cant": "a test sees the times of a few runs on one machine; that no timing of the parts breaks the sums is a statement about all executions", "anchors": ["src/shared/solver_utils.h: print_solver_monitoring_info", "src/utils/monitoring/OpenMPTimer.cpp", "src/utils/monitoring/SimpleTimer.cpp", "src/main.cpp", "src/muscl/SolverHydroMuscl.cpp: godunov_unsplit_impl", "src/muscl/SolverMHDMuscl.cpp: godunov_unsplit_impl", "src/mood/SolverHydroMood.h", "src/sdm/SolverHydroSDM.h"]}
{"id": "C93", "title": "A distributed run starts exactly if its process grid matches", "statement": "A distributed run gets past its start if and only if the numbers of processes per direction that the solver uses (two in 2D, three in 3D) are positive and multiply to the number of processes; otherwise some process stops with an MPI error.  A run that starts gives every process a place of the grid and every place exactly one process, the place the other theorems on distributed runs use.  In 3D the consistency message appears exactly for positive grids that do not match.  Finding: in 2D with more than one process along z the message is missing where the run cannot start and appears where it starts.", "quantifier": "all process grids and numbers of processes, 2D and 3D", "why_tests_cant": "a test starts a few grids; that no mismatch slips through and no place is taken twice is a statement about all grids", "anchors": ["src/shared/HydroParams.cpp: HydroParams::setup_mpi", "src/utils/mpiUtils/MpiCommCart.cpp: MpiCommCart", "src/utils/mpiUtils/MpiComm.cpp: MpiComm::init"]}
