# Formal model of ppkMHD in Rocq: design

## Method

* The C++ source in /repo is read as text and transcribed function by function into total Gallina
  functions under `rocq/theories`.  Every definition of the model cites the file and lines it models;
  simplifications are stated in the same comment.
* Arithmetic is a record of operations (`Arith.v`: zero, one, add, mul, div, sqrt, comparisons, literals,
  no laws).  Structural properties (same result for every schedule, implementation or process grid;
  memory safety; locality; file round trips) are proved for *every* instance, hence for IEEE floats too.
  Algebraic properties (conservation, consistency, div B, symmetry) are proved for the instance over the
  reals (`RArith`) and say nothing about rounding.  `Float64.v` (round to nearest of the exact result, no
  overflow) and `SpecF.v` (the standard library's executable IEEE binary64 with infinities and NaN) are used
  where rounding is the subject and for witnesses of defects.
* A `parallel_for` is a pool of threads, one per cell, each a program of a small free monad (read, write,
  atomic add); every interleaving of single accesses is an execution (`Par.v`).  Disjoint footprints imply
  schedule independence (`ParProofs.v`, `TaskKernels.v`); loops that accumulate with atomic adds are
  handled over the reals (`Atomic.v`).  A `parallel_reduce` is any tree over any permutation (`ReduceModel.v`).
* MPI is a small-step message-passing semantics: one program per rank, FIFO channels, eager or rendezvous
  sends, collective reductions (`SpmdModel.v`, `MpiModel.v`).
* Uninitialised memory is an explicit `junk` argument: "defined" means "independent of junk".
  Out-of-bounds accesses are excluded by footprint theorems or by an invariant of reachable configurations.
* Statements use small specification files that do not mention the code: `BoundarySpec`, `HydroSpec`,
  `Physics`, `SymmetrySpec`, `LoopSpec`, `SpmdSpec`, `MpiSpec`, `ConfigSpec`, `MhdSpec`, `MhdSpec3`, `MhdPhysics`,
  `MhdFanSpec`, `MhdInitSpec`, `MoodSpec`, `MoodSafeSpec`, `SdmSpec`, `SdmRunSpec`, `SdmConsSpec`, `SdmSafeSpec`, `EulerSpec`, `IoSpec`,
  `IoFieldSpec`, `VtkSpec`.
* Theorems are in `Thm_*.v`, each followed by `Print Assumptions` and an `Example` in which its hypotheses hold.
* A property that the code violates is stated and refuted (suffix `_refuted`, with a concrete witness) next to
  the strongest true variant.  A property proved in part has the suffix `_partial`.
* Theorems are tested against seeded bugs in the model; `seeded/LOG.jsonl` records each edit, the theorems that
  failed and the theorems added or tightened because of a survivor.  `lemmas_failed` are the statements whose own proof
  script stopped; `theorems_failed` also counts the theorems that rest on them, even if the edit leaves their claim true.


## Plan and result per property

One entry per property: how it is modelled and proved, its status, and its theorems. After each theorem the axioms that `Print Assumptions` lists for it:
`-` none (closed under the global context), `F` ClassicalDedekindReals.sig_forall_dec, `N` ClassicalDedekindReals.sig_not_dec, `E` functional_extensionality_dep, `C` Classical_Prop.classic.
All four are axioms of Coq's standard library (`Reals`, and `classic` through Coquelicot/Flocq lemmas).

* **C01** Configuration lookups ignore letter case and the last assignment wins. *Plan:* Model key construction and the assignment store (Config.v). Induction over the assignment list against a spec that scans the list from the end with case-insensitive equality. *Status:* proved. Section names without a dot (C03_dot_refuted shows why).
  - Thm_Config.v: `C01_last_assignment_wins` [-], `C01_answer_unique` [-], `C01_case` [-]
* **C02** Set-then-get round trip of configuration values. *Plan:* Model setters/getters including the decimal printer and strtol. Round trip by induction on digits. *Status:* proved.
  - Thm_Config.v: `C02_string` [-], `C02_integer` [-], `C02_bool` [-], `C02_others` [-]
* **C03** Distinct (section, key) pairs never interfere. *Plan:* Model MakeKey. Positive theorem for dot-free names, `_refuted` theorem with a witness for names with dots. *Status:* proved. For sections without a dot; C03_dot_refuted shows the exception named in the statement.
  - Thm_Config.v: `C03_distinct` [-], `C03_dot_refuted` [-]
* **C04** Line-level robustness of the ini parser. *Plan:* Model ini_parse over a list of lines; induction over the lines against a line-by-line specification. *Status:* proved. The parser is proved equal to a declarative grammar of lines and files (ConfigSpec.v). The two exceptions named in the statement are C04_indented_comment_refuted and C04_section_space_refuted.
  - Thm_Config.v: `C04_file` [-], `C04_every_file` [-], `C04_buffer` [-], `C04_useless_lines` [-], `C04_spacing` [-], `C04_indented_comment_refuted` [-], `C04_section_space_refuted` [-]
* **C05** Serial and MPI builds read the same configuration from the same file. *Plan:* Model both line readers (fgets with 200-byte buffer, getline); equality for short lines, `_refuted` for long lines. *Status:* proved. Lines of at most 198 characters; the exception named in the statement is shown by two _refuted theorems.
  - Thm_Config.v: `C05_same_configuration` [-], `C05_long_comment_refuted` [-], `C05_long_value_refuted` [-]
* **C06** Typed getters fall back to the default exactly on unparsable values. *Plan:* Model strtol base 0 and the boolean table; theorem characterising when a default is returned. *Status:* proved. strtol is modelled from the C standard with a 64-bit long. getFloat is not modelled.
  - Thm_Config.v: `C06_integer` [-], `C06_bool` [-]
* **C07** Linear cell index and cell coordinates are in bijection. *Plan:* Model index2coord/coord2index for both layouts over Z; div/mod arithmetic. *Status:* proved. Both layouts, all sizes; machine overflow not modelled.
  - Thm_Grid.v: `C07_coord_index_roundtrip_2d` [-], `C07_index_coord_roundtrip_2d` [-], `C07_coord_index_roundtrip_3d` [-], `C07_index_coord_roundtrip_3d` [-]
* **C08** Grid geometry derived from the parameters is consistent across process grids. *Plan:* Model HydroParams::init and setup_mpi over exact rationals/reals; field algebra. *Status:* proved. Cell sizes, centres and SDM solution points in any arithmetic; C08_four_quadrant_refuted: the 2D four-quadrant SDM problem evaluates its initial condition half a cell off.
  - Thm_Mpi.v: `C08_cell_size` [-], `C08_centre` [-], `C08_sdm_point` [-], `C08_centre_is_midpoint` [EFN], `C08_sdm_point_in_cell` [EFN], `C08_four_quadrant_refuted` [EFN], `C08_initial_data` [-]
* **C09** Ghost cells hold exactly what the selected boundary condition prescribes. *Plan:* Model the boundary functors as per-thread programs (Boundary.v). Spec: per-direction source map on coordinates. Proof: pool theorem per face + composition of faces. *Status:* proved. Any arithmetic, any interleaving, 2D/3D, hydro/MHD.
  - Thm_Boundary.v: `C09_boundary_fill_2d` [-], `C09_boundary_fill_3d` [-], `C09_interior_unchanged_2d` [-], `C09_interior_unchanged_3d` [-], `C09_image_is_interior` [-]
* **C10** Boundary fill is memory safe and independent of the thread schedule. *Plan:* Footprints of the boundary programs + generic race-freedom theorem (Par.v). `_refuted` for n < ghost width. *Status:* proved. In bounds for all sizes; schedule independent when no_race_f; refuted for periodic directions thinner than the ghost width.
  - Thm_Boundary.v: `C10_boundary_in_bounds_2d` [-], `C10_boundary_in_bounds_3d` [-], `C10_boundary_schedule_independent_2d` [-], `C10_boundary_schedule_independent_3d` [-], `C10_schedule_independence_thin_refuted` [-]
* **C11** Filling the boundary twice changes nothing. *Plan:* From the spec of C09: the source map is idempotent and lands in the interior. *Status:* proved.
  - Thm_Boundary.v: `C11_boundary_idempotent_2d` [-], `C11_boundary_idempotent_3d` [-]
* **C12** Distributed ghost exchange equals the single-process boundary fill. *Plan:* Model the pack/send/recv/unpack sequence on all ranks (Mpi.v); prove the windows of the serial spec are reached. `_refuted` for unknown codes. *Status:* proved. All process grids, layouts and asynchronous executions, 2D and 3D, exact and rounded arithmetic, for the four documented boundary codes. C12_unknown_code_refuted shows the exception named in the statement.
  - Thm_Mpi.v: `C12_exchange_2d` [-], `C12_exchange_3d` [-], `C12_unknown_code_refuted` [-]
* **C13** The halo exchange never deadlocks and never mixes up messages. *Plan:* Small-step message-passing semantics of sendrecv with FIFO channels per (src,dst,tag); progress and matching for any grid. *Status:* proved. Eager and rendezvous sends; one exchange and runs of n iterations, hydro and MHD (C13_iterations_mhd).
  - Thm_Mpi.v: `C13_exchange` [-], `C13_iterations` [-], `C13_neighbours_mutual` [-]
  - Thm_MpiMhd.v: `C13_iterations_mhd` [-]
* **C14** Every rank advances with the same, globally safe time step. *Plan:* Model of allReduce MIN over an arbitrary reduction tree; min algebra. The float-datatype case: model of bit reinterpretation or `_refuted` through an abstract datatype mismatch. *Status:* proved. Exact arithmetic and binary64 rounding (no overflow or NaN), hydro and MHD (C14_global_dt_mhd). C14_single_precision_refuted shows the exception named in the statement.
  - Thm_Mpi.v: `C14_global_dt` [CEFN], `C14_equals_serial_2d` [CEFN], `C14_equals_serial_3d` [CEFN], `C14_single_precision_refuted` [CEFN]
  - Thm_MpiMhd.v: `C14_global_dt_mhd` [CEFN]
* **C15** A distributed simulation reproduces the single-process simulation. *Plan:* Compose C12 with the locality of the step; induction over steps; arithmetic abstract. *Status:* proved. Hydro: any number of iterations of impl 0 and 1, with or without gravity, exact arithmetic and binary64 rounding (no overflow or NaN); in binary64 the signal rates of the single-process run are assumed positive (division by zero is not modelled). MHD (C15_mhd_2d, C15_mhd_3d): any number of iterations of every implementation variant, exact arithmetic, all boundary codes, no rotating frame.
  - Thm_Mpi.v: `C15_distributed_run_2d` [CEFN], `C15_distributed_run_3d` [CEFN], `C15_exact_2d` [CEFN], `C15_exact_3d` [CEFN], `C15_finish_together` [-]
  - Thm_MpiMhd.v: `C15_mhd_2d` [EFN], `C15_mhd_3d` [EFN]
* **C16** Simulated time never exceeds the end time and reaches it. *Plan:* Model compute_dt/finished/next_iteration (TimeLoop.v) over R with an arbitrary physics step; invariant by induction. *Status:* proved. Exact arithmetic for any positive time-step rule, instantiated for the 2D/3D hydro solver; also with binary64 rounding (Flocq) when tEnd is a single-precision value, as getFloat makes it; refuted for an arbitrary double tEnd (overshoot by one ulp).
  - Thm_Loop.v: `C16_time` [EFN], `C16_stops` [EFN], `C16_reaches_end` [EFN], `C16_time_hydro_2d` [EFN], `C16_time_hydro_3d` [EFN], `C16_time_double` [CEFN], `C16_time_double_any_end_refuted` [CEFN]
* **C17** The run terminates after at most nStepmax steps. *Plan:* Same model; the iteration counter is a variant. *Status:* proved. Loop length bounded by nStepmax for any dynamics; the loop can always be completed when nlog is not 0 (nlog = 0 is a division by zero in the code), in particular by the hydrodynamics and MHD solvers.
  - Thm_Loop.v: `C17_bounded` [-], `C17_terminates` [-], `C17_terminates_hydro_2d` [-], `C17_terminates_hydro_3d` [-]
  - Thm_RestartMhd.v: `C17_terminates_mhd_2d` [-], `C17_terminates_mhd_3d` [-]
* **C18** Snapshots: numbering is contiguous and the requested cadence is respected. *Plan:* Same model with an output trace; invariant by induction. *Status:* proved. Numbering, first/last snapshot, cadence, nOutput = 0 and nOutput < 0; finding: with nOutput < 0 the initial state is written twice (files 0 and 1).
  - Thm_Loop.v: `C18_numbering` [-], `C18_no_output` [-], `C18_initial_and_final_saved` [-], `C18_cadence` [EFN], `C18_every_step` [-], `C18_initial_written_twice` [-]
* **C19** The current solution is always in the buffer selected by the iteration parity. *Plan:* Same model with two buffers; induction on parity. *Status:* proved. The memory-level run refines a trajectory of the pure scheme, for any arithmetic, 2D and 3D hydro; generic two-buffer theorem for any other scheme.
  - Thm_Loop.v: `C19_run_is_trajectory_2d` [-], `C19_run_is_trajectory_3d` [-], `C19_two_buffers` [-]
* **C20** Finite-volume update conserves mass, momentum and energy. *Plan:* Model Update kernels; telescoping sums over arbitrary n over R. *Status:* proved. One step, exact real arithmetic, all supported Riemann solvers and slope types, versions 0 and 1; multi-step and reflecting-wall forms are separate theorems where present.
  - Thm_Hydro.v: `C20_flux_balance_2d` [EFN], `C20_flux_balance_3d` [EFN], `C20_conservation_periodic_2d` [EFN], `C20_conservation_periodic_3d` [EFN]
  - Thm_Loop.v: `C20_run_conserves_2d` [EFN], `C20_run_conserves_3d` [EFN]
* **C21** Implementation variants of the hydro solver are interchangeable. *Plan:* Model both pipelines for abstract arithmetic; equality of the per-cell expressions; `_refuted` with witness for 3D + gravity. *Status:* proved. Bitwise agreement in 2D (gravity included) and 3D without gravity; the 3D gravity case is refuted by a concrete run.
  - Thm_Hydro.v: `C21_versions_agree_2d` [-], `C21_versions_agree_3d_no_gravity` [-], `C21_versions_agree_3d_gravity_refuted` [-]
* **C22** Every accepted implementation version advances the solution. *Plan:* `_refuted` theorem with witness (version 2), positive theorem for versions 0 and 1. *Status:* proved. The property is false for version 2: proved that version 2 copies the interior unchanged for all data, with a concrete run where versions 0 and 1 do change the data.
  - Thm_Hydro.v: `C22_version2_freezes_2d` [-], `C22_version2_freezes_3d` [-], `C22_every_version_advances_2d_refuted` [-], `C22_every_version_advances_3d_refuted` [-]
* **C23** Hydro kernels are memory safe and independent of the thread schedule. *Plan:* Footprints of every kernel + generic theorem (Par.v), composed over the kernels of a step. *Status:* proved. All versions, any arithmetic, any interleaving.
  - Thm_Hydro.v: `C23_schedule_independent_2d` [-], `C23_schedule_independent_3d` [-], `C23_memory_safe_2d` [-], `C23_memory_safe_3d` [-], `C23_no_uninitialised_3d` [-]
* **C24** A uniform flow stays uniform. *Plan:* Over R: slopes vanish, traces equal the state, consistency of the Riemann solver (C32), update cancels. *Status:* proved. Periodic and outflow sides in any combination; every supported Riemann solver (no consistency hypothesis is needed, equal fluxes cancel).
  - Thm_Hydro.v: `C24_uniform_flow_2d` [EFN], `C24_uniform_flow_3d` [EFN]
* **C25** Slope limiter never creates new extrema. *Plan:* Over R; case analysis. *Status:* proved. Limited slopes for any data (2D/3D, both slope types); face values lie between neighbours.
  - Thm_Point.v: `C25_limiter_2d` [EFN], `C25_limiter_3d` [EFN]
* **C26** Every configured slope type yields defined slopes. *Plan:* Uninitialised memory is an explicit `junk` argument; independence of junk for defined types, `_refuted` otherwise. *Status:* proved. Hydro slope types and MHD in 2D and 3D: types 1 and 2 defined; all others leave the MHD slopes undefined in 2D and in the low-memory variant (refuted), and give zero slopes in 3D variants 0 and 1.
  - Thm_Mhd2.v: `C26_mhd_types_1_2_defined_2d` [-], `C26_mhd_other_types_refuted` [EFN], `C26_mhd_step_defined_2d` [EFN]
  - Thm_Mhd3.v: `C26_mhd_other_types_zero_3d` [EFN], `C26_mhd_step_defined_3d` [EFN]
  - Thm_Point.v: `C26_hydro_types_0_1_2_defined_2d` [-], `C26_hydro_types_0_1_2_defined_3d` [-], `C26_hydro_other_types_refuted` [EFN]
* **C27** Primitive conversion floors density and pressure and inverts the conservative form. *Plan:* Over R; max bounds; field algebra for the round trip. *Status:* proved. Floors, inverse and round trip of the primitive conversion over the reals.
  - Thm_Point.v: `C27_floors_2d` [EFN], `C27_floors_3d` [EFN], `C27_round_trip_2d` [EFN], `C27_round_trip_3d` [EFN], `C27_inverse_2d` [EFN], `C27_inverse_3d` [EFN]
* **C28** The time step satisfies the CFL condition in every cell. *Plan:* Model the reduction as a fold in any order of max; list induction. *Status:* proved. CFL bound for every schedule of the max reduction, with and without gravity.
  - Thm_Point.v: `C28_cfl_2d` [EFN], `C28_cfl_3d` [EFN], `C28_cfl_gravity_2d` [EFN], `C28_cfl_gravity_3d` [EFN], `C28_schedule_independent_2d` [EFN], `C28_schedule_independent_3d` [EFN]
* **C29** One step only looks at the numerical stencil. *Plan:* From the footprints: two stores agreeing on the stencil give the same result. *Status:* proved. Any arithmetic; distance measured as |di|+|dj|(+|dk|) <= 2.
  - Thm_Hydro.v: `C29_locality_2d` [-], `C29_locality_3d` [-], `C29_locality_interior_2d` [-], `C29_locality_interior_3d` [-]
* **C30** The hydro scheme treats the coordinate axes alike. *Plan:* Over R; the pipeline on transposed data; uses the swap structure of the code. *Status:* proved. x<->y (2D, 3D) and x<->z (3D) for all solvers; 3D version 1 with gravity excluded (C21 refutation)
  - Thm_Symmetry.v: `C30_exchange_xy_2d` [EFN], `C30_exchange_xy_3d` [EFN], `C30_exchange_xz_3d` [EFN]
* **C31** Gravity source term keeps internal energy. *Plan:* Over R; ring. *Status:* proved. Gravity source changes energy by exactly the kinetic-energy change.
  - Thm_Point.v: `C31_gravity_source_2d` [EFN], `C31_gravity_source_3d` [EFN]
* **C32** Riemann solvers are consistent. *Plan:* Over R; unfold each solver at equal states; field algebra. *Status:* proved. All hydro solvers and the MHD solvers llf, hll, hlld; hlld excludes the degenerate purely normal field, where a NaN in double precision is exhibited.
  - Thm_Mhd2.v: `C32_mhd_consistent` [EFN], `C32_hlld_normal_field_refuted` [-]
  - Thm_Riemann.v: `C32_consistent_2d` [EFN], `C32_consistent_3d` [EFN]
* **C33** Riemann solvers respect mirror symmetry. *Plan:* Over R; case analysis on wave speeds. *Status:* partial. Full for LLF, HLL, HLLC; Newton solver unless the computed contact speed is exactly zero and an outer shock is on the wrong side of it.
  - Thm_Approx.v: `C33_mirror_approx_stagnant_2d_partial` [EFN], `C33_mirror_approx_stagnant_3d_partial` [EFN]
  - Thm_Riemann.v: `C33_mirror_2d` [EFN], `C33_mirror_3d` [EFN], `C33_mirror_approx_2d_partial` [EFN], `C33_mirror_approx_3d_partial` [EFN]
* **C34** Supersonic flow is upwinded; contacts are resolved. *Plan:* Over R; case analysis. *Status:* proved. HLL/HLLC supersonic upwinding; HLLC and Newton resolve every contact, moving or not; transverse momentum.
  - Thm_Riemann.v: `C34_upwind_2d` [EFN], `C34_upwind_3d` [EFN], `C34_contact_2d` [EFN], `C34_contact_3d` [EFN], `C34_transverse_3d` [EFN]
* **C35** Every selectable Riemann solver defines the flux. *Plan:* junk argument as in C26. *Status:* proved. Exact characterisation of the names that define the flux, hydro and MHD: the default and every unknown name select approx, which leaves the MHD flux undefined.
  - Thm_Mhd2.v: `C35_names_mhd` [EFN]
  - Thm_Riemann.v: `C35_names_2d` [EFN], `C35_names_3d` [EFN]
* **C36** Constrained transport keeps the discrete divergence of B. *Plan:* Over R; the EMF contributions cancel in the divergence; periodic whole-domain statement by induction over steps; `_refuted` for outflow. *Status:* proved. 2D and 3D, all variants, one step and whole runs; the failure next to a non-periodic side, announced in the statement, is exhibited in double precision (2D). The 3D periodic theorems assume no rotating frame, which every configuration of the code satisfies (Omega0 is never set).
  - Thm_Mhd2.v: `C36_divB_interior_2d` [EFN], `C36_divB_interior_run_2d` [EFN], `C36_divB_periodic_2d` [EFN], `C36_divB_periodic_run_2d` [EFN], `C36_divB_boundary_layer_refuted` [-]
  - Thm_Mhd3.v: `C36_divB_interior_3d` [EFN], `C36_divB_interior_run_3d` [EFN], `C36_divB_periodic_3d` [EFN], `C36_divB_periodic_run_3d` [EFN]
* **C37** MHD implementation variants are interchangeable. *Plan:* Atomic-add pool theorem over a commutative monoid; equality with the stored-flux update. *Status:* proved. 2D: all three variants agree. 3D: variants 0 and 1 agree and each variant is deterministic; variant 2 differs (C37_low_memory_3d_refuted: divergence-free field, no rotation), as announced in the statement.
  - Thm_Mhd2.v: `C37_variants_agree_2d` [EFN], `C37_stored_atomic_agree_2d` [EFN]
  - Thm_Mhd3.v: `C37_stored_atomic_agree_3d` [EFN], `C37_low_memory_3d_refuted` [EFN], `C37_deterministic_3d` [EFN]
* **C38** MHD update conserves mass, momentum and energy. *Plan:* Telescoping sums as C20. *Status:* proved. 2D and 3D: balance, and conservation with periodic boundaries for one step and whole runs (3D: no rotating frame, as in every configuration).
  - Thm_Mhd2.v: `C38_balance_2d` [EFN], `C38_conserved_2d` [EFN], `C38_conserved_run_2d` [EFN]
  - Thm_Mhd3.v: `C38_balance_3d` [EFN], `C38_conserved_3d` [EFN], `C38_conserved_run_3d` [EFN]
* **C39** MHD primitive conversion recovers the cell-centred field. *Plan:* Round trip over R; `_refuted` for 2D Bz. *Status:* proved. 3D: proved, also for non-uniform face fields. 2D: holds for an in-plane field; refuted for the z component (halved) and the pressure, as announced in the statement.
  - Thm_Mhd2.v: `C39_primitives_2d_partial` [EFN], `C39_primitives_2d_refuted` [EFN], `C39_pressure_2d_refuted` [EFN]
  - Thm_Mhd3.v: `C39_primitives_3d` [EFN]
* **C40** Initial magnetic fields are divergence free. *Plan:* Model the init kernels; discrete divergence computed per problem. *Status:* proved. All seven MHD problems, 2D and 3D, any schedule; periodic faces for the loop and the wave, no reflecting wall otherwise, contained loop. Finding: the implosion configured with different fields in its two regions has nonzero divergence along the interface (C40_implode_refuted).
  - Thm_MhdInit.v: `C40_div2` [CEFN], `C40_div3` [CEFN], `C40_implode_interface` [CEFN], `C40_implode_refuted` [CEFN]
* **C41** Spectral-difference interpolation and differentiation are exact on polynomials. *Plan:* Over R with abstract distinct nodes; polynomial interpolation uniqueness (root counting). *Status:* proved. Four exactness theorems for every order and every family of distinct points; C41_points shows the tabulated Chebyshev/Legendre points of N=1..6 meet the hypotheses.
  - Thm_Sdm.v: `C41_sol2flux` [EFN], `C41_flux2sol` [EFN], `C41_flux2sol_derivative` [CEFN], `C41_sol2sol_derivative` [CEFN], `C41_points` [CEFN]
* **C42** Spectral-difference scheme preserves constants and telescopes. *Plan:* Corollaries of C41 + telescoping. *Status:* proved. Telescoping of the derivative matrix, conservation form with a consistent numerical flux, conservation of totals on periodic domains for forward Euler, RK2, RK3. C42_conserve_rk54_refuted: SSP-RK54 multiplies totals by 1+1e-15. Zero divergence of a uniform state is C70_sdm_uniform.
  - Thm_Sdm.v: `C42_telescope` [CEFN], `C42_flux_form` [CEFN], `C42_conserve` [CEFN], `C42_conserve_rk54_refuted` [CEFN]
* **C43** Degree-of-freedom maps are injective and dense. *Plan:* Mixed-radix arithmetic over Z. *Status:* proved. Range, injectivity and surjectivity for every order, direction and number of variables.
  - Thm_Sdm.v: `C43_DofMap` [-], `C43_DofMapFlux` [-]
* **C44** Runge-Kutta stages are convex combinations. *Plan:* Weights as rationals; ring; convexity. *Status:* proved. RK2 and RK3 of the MOOD and SDM solvers are the convex combinations of forward Euler steps. The SSP-RK54 case is refuted: C61_ssprk54_refuted (MOOD), C42_conserve_rk54_refuted and C70_sdm_uniform_rk54_refuted (SDM).
  - Thm_MoodKernels.v: `C44_mood_rk2` [EFN], `C44_mood_rk3` [EFN]
  - Thm_Sdm.v: `C44_sdm_rk2` [EFN], `C44_sdm_rk3` [EFN]
* **C45** Cell averages used by limiter and positivity are averages. *Plan:* `_refuted` by computing the weights for N=1 (and characterisation). *Status:* proved. Refuted: for every order and dimension the average of a non-zero constant differs from it (theorem C45_average_refuted gives the exact factor).
  - Thm_Sdm.v: `C45_average_refuted` [CEFN]
* **C46** Monomial enumeration lists every exponent once. *Plan:* Characterise the successor function in graded order; induction on the degree. *Status:* proved. The loop of init_map is modelled as written (mono_next_grlex); dims 2 and 3, all degrees.
  - Thm_MoodPoly.v: `C46_terminates` [-], `C46_exactly_once` [-], `C46_order` [-], `C46_count` [-]
* **C47** Binomial coefficients are correct. *Plan:* Pascal identity; product formula; overflow witness. *Status:* proved. Template and run-time function; the run-time one is exact whenever it returns, total for n<=29 and shown to overflow int at (30,15).
  - Thm_MoodPoly.v: `C47_template` [-], `C47_template_total` [-], `C47_runtime` [-], `C47_runtime_defined` [-], `C47_runtime_total_refuted` [-]
* **C48** MOOD update is conservative and its fallback protects the flagged cells. *Plan:* Telescoping; `_refuted` theorems for the defects. *Status:* partial. Flux balance of the totals in 2D and 3D (forward Euler); periodic conservation in 2D for forward Euler and the two- and three-stage integrators while no cell of the first row or column is flagged; semantics of the detection and fallback loops in 2D and 3D. Refuted in IEEE arithmetic: conservation with a flagged cell at the periodic boundary, positivity after the fallback, detection of negative pressure, scaling of z fluxes in 3D. Not claimed: periodic conservation in 3D, where the first layer of ghost polynomials is stale (C49_stale_refuted).
  - Thm_MoodKernels.v: `C48_balance2` [EFN], `C48_balance3` [EFN], `C48_conserve_partial` [EFN], `C48_flags2_partial` [EFN], `C48_fallback2_partial` [-], `C48_flags3_partial` [EFN], `C48_fallback3_partial` [-], `C48_conserve_rk2_partial` [EFN], `C48_conserve_rk3_partial` [EFN], `C48_periodic_refuted` [-], `C48_fallback_refuted` [-], `C48_pressure_refuted` [-], `C48_zscale_refuted` [-]
* **C49** MOOD reconstruction data is computed wherever it is read. *Plan:* Range inclusion; `_refuted` in 3D. *Status:* proved. 2D: the new state is a function of the old interior state for every integrator. 3D: refuted (uniform gas at rest changes).
  - Thm_MoodKernels.v: `C49_fresh2` [-], `C49_stale_refuted` [-]
* **C50** Geometric moments and face quadratures are exact. *Plan:* Over R; power/antiderivative algebra. *Status:* proved. Moments against Coquelicot integrals; quadratures exact for the true square roots, decimal constants bounded (and the SQRT_3_5 literal shown not to have the digits it is written with). C50 rests on Coquelicot and hence Classical_Prop.classic.
  - Thm_MoodPoly.v: `C50_moment2` [CEFN], `C50_moment3` [CEFN], `C50_points_suffice` [-], `C50_face2` [CEFN], `C50_face3` [CEFN], `C50_constants` [EFN], `C50_sqrt_3_5_digits_refuted` [EFN]
* **C51** Euler eigenvector matrices are inverse of each other. *Plan:* Over R; field. *Status:* proved. Both compositions are the identity, and the transforms diagonalise the Jacobian of the Euler flux with the wave speeds un-c, un+c, un.
  - Thm_Sdm.v: `C51_inverse` [EFN], `C51_jacobian` [CEFN]
* **C52** Output files describe exactly the interior cells. *Plan:* Model the writers as lists of bytes/words; flattening lemmas. *Status:* proved. ASCII and binary VTK files, serial and per process: names, order, offsets, block sizes; parallel 3D header. Findings: int overflow of the offsets beyond 2^31 values in front of a variable (C52_offset_overflow_refuted), and 2D parallel headers announce pieces one cell thick (C52_pieces2_refuted).
  - Thm_Vtk.v: `C52_ascii` [-], `C52_binary` [-], `C52_no_overflow` [-], `C52_offset_overflow_refuted` [-], `C52_pieces` [-], `C52_pieces2_refuted` [-]
* **C53** Restart reproduces the saved state. *Plan:* Model the buffer copies and hyperslab semantics; index bijection. *Status:* proved. Round trip of every interior value (whole array with ghosts) with step and time, serial and parallel, any layouts, any write order; portability across decompositions. With overlapping ghost layers it holds if the halos agree; C53_roundtrip_halo_refuted shows stale ghosts overwrite interior cells. Files with reassembleInFile=no cannot be read back (C53_stacked_refuted). The HDF5 library itself is a small specification in IoModel.v.
  - Thm_Io.v: `C53_roundtrip` [-], `C53_roundtrip_mpi` [-], `C53_roundtrip_halo` [-], `C53_roundtrip_halo_refuted` [F], `C53_portable` [-], `C53_serial_to_parallel` [-], `C53_parallel_to_serial` [-], `C53_stacked_refuted` [-]
* **C54** The mirror image of a flow evolves into the mirror image. *Plan:* Reflection of the whole step over R (HydroReflect.v): mirrored input gives mirrored output; corollary walls. *Status:* proved. hll, hllc, llf
  - Thm_Symmetry.v: `C54_reflection_2d` [EFN], `C54_reflection_3d` [EFN]
* **C55** Reflecting walls let neither mass nor energy through. *Plan:* Mirror symmetry at the wall makes the mass and energy flux vanish; balance of C20. *Status:* proved. hll, hllc, llf; without gravity
  - Thm_Loop.v: `C55_run_closed_2d` [EFN], `C55_run_closed_3d` [EFN]
  - Thm_Symmetry.v: `C55_closed_domain_2d` [EFN], `C55_closed_domain_3d` [EFN]
* **C56** The MHD time step satisfies the CFL condition. *Plan:* Reduction in any order over R, as C28, with fast magnetosonic speeds. *Status:* proved. 2D and 3D.
  - Thm_Mhd2.v: `C56_mhd_cfl_2d` [EFN], `C56_fast_speed` [EFN]
  - Thm_Mhd3.v: `C56_mhd_cfl_3d` [EFN]
* **C57** A uniform magnetised flow is steady. *Plan:* Uniform MHD state over R: slopes, EMF and flux differences vanish. *Status:* proved. 2D and 3D (3D: no rotating frame, as in every configuration).
  - Thm_Mhd2.v: `C57_mhd_uniform_2d` [EFN]
  - Thm_Mhd3.v: `C57_mhd_uniform_3d` [EFN]
* **C58** The electromotive force solver is consistent and upwind. *Plan:* Electromotive force solver over R: equal corner states, and selection of the upwind corner. *Status:* proved. All three orientations; branch selection away from zero speeds.
  - Thm_Mhd2.v: `C58_emf_consistent` [EFN], `C58_emf_branches` [EFN]
* **C59** The MOOD reconstruction reproduces polynomials of its degree. *Plan:* Least squares reconstruction over R; pseudo-inverse by contract; refutation by a quadratic. *Status:* proved. Linear exactness proved; exactness for degree >=2 refuted for every stencil and cell size; least squares optimality proved. LAPACK/BLAS enter through the contract pseudo_inverse; unwritten stack entries are an argument.
  - Thm_MoodPoly.v: `C59_coefficients` [CEFN], `C59_linear_exact` [CEFN], `C59_offset` [CEFN], `C59_exact_refuted` [CEFN], `C59_least_squares` [CEFN], `C59_junk_refuted` [-]
* **C60** The MOOD least squares problem is well posed. *Plan:* Integer elimination on the stencil matrices, executed and verified in Coq. *Status:* proved. Rank by verified integer elimination; existence of the QR-based pseudo-inverse by Gram-Schmidt. The incompleteness of the 3D degree-4 stencil is a refutation.
  - Thm_MoodPoly.v: `C60_full_rank` [EFN], `C60_left_inverse` [EF], `C60_stencil_complete_refuted` [-], `C60_stencils` [-]
* **C61** Each accepted MOOD time integrator advances the solution. *Plan:* Follow the buffers through the stages of each integrator; SSP-RK54 leaves the output buffer untouched for all data. *Status:* proved. FE, RK2 and RK3 are covered by C44/C48; SSP-RK54 is refuted for all data.
  - Thm_MoodKernels.v: `C61_ssprk54_refuted` [-]
* **C62** The MOOD time step never exceeds the CFL step. *Plan:* MOOD time step against its CFL statement over R. *Status:* proved. Holds when the CFL step is at most one; refuted for every CFL step above one and degree above 2. Real arithmetic.
  - Thm_MoodKernels.v: `C62_rescale` [CEFN], `C62_rescale_refuted` [CEFN]
* **C63** A MOOD step gives the same result under every schedule. *Plan:* Footprints of the MOOD loops (task form) + generic theorem. *Status:* proved. All integrators, 2D and 3D, any arithmetic, every interleaving.
  - Thm_MoodKernels.v: `C63_deterministic` [-]
* **C64** A MOOD step touches only allocated memory. *Plan:* Reachability invariant: the next access of every thread is inside the allocation. *Status:* proved. All integrators, 2D and 3D, dynamic safety in every reachable configuration.
  - Thm_MoodKernels.v: `C64_memory_safe` [-]
* **C65** The MOOD solver keeps a uniform flow uniform. *Plan:* Uniform state through reconstruction, flux and update over R. *Status:* proved. 2D for every integrator, stencil and reconstruction matrix (real arithmetic); 3D refuted by C49_stale_refuted.
  - Thm_MoodKernels.v: `C65_uniform2` [EFN]
* **C66** The SDM boundary fill puts the right image in every ghost cell. *Plan:* SDM boundary loops against the index map of C09 lifted to points in a cell. *Status:* proved. Every ghost cell, including corners, all boundary types, any arithmetic, any schedule.
  - Thm_Sdm.v: `C66_sdm_ghosts` [-]
* **C67** The SDM time step obeys the CFL condition. *Plan:* SDM time step over R; sound speed used as its square. *Status:* partial. Proved where the speed of sound is at least one; refuted (C67_sdm_cfl_refuted) where it is below one, because compute_speed_of_sound returns the square. Rescaled step: C67_sdm_rescale, C67_sdm_rescale_refuted.
  - Thm_Sdm.v: `C67_sdm_cfl_partial` [EFN], `C67_sdm_cfl_refuted` [EFN], `C67_sdm_rescale` [CEFN], `C67_sdm_rescale_refuted` [CEFN]
* **C68** An SDM step depends only on the interior state. *Plan:* Footprints of the SDM loops. *Status:* proved. All four integrators, any arithmetic, any schedule.
  - Thm_Sdm.v: `C68_sdm_deterministic` [EFN]
* **C69** An SDM step touches only allocated memory. *Plan:* Reachability invariant as in C64 for SDM. *Status:* proved. All four integrators, any arithmetic, any schedule.
  - Thm_Sdm.v: `C69_sdm_memory_safe` [-]
* **C70** The SDM solver keeps a uniform flow uniform. *Plan:* SDM uniform flow: exactness on constants (C41) + equal fluxes. *Status:* proved. Forward Euler, RK2, RK3; refuted for SSP-RK54 (C70_sdm_uniform_rk54_refuted).
  - Thm_Sdm.v: `C70_sdm_uniform` [CEFN], `C70_sdm_uniform_rk54_refuted` [CEFN]
* **C71** Each built-in MHD problem starts with the pressure its parameters prescribe. *Plan:* Initial conditions executed symbolically, then primitive conversion over R. *Status:* partial. 3D: proved for blast, implosion at rest, Orszag-Tang, Kelvin-Helmholtz, rotor and field loop. 2D: proved for Orszag-Tang, Kelvin-Helmholtz, rotor and implosion at rest. Findings: the 2D blast and the 2D field loop start with another pressure, and so does a moving implosion region whose density is not 1. The wave is a perturbation and prescribes no pressure pointwise.
  - Thm_MhdInit.v: `C71_pressure3` [CEFN], `C71_pressure2` [CEFN], `C71_blast2_refuted` [CEFN], `C71_loop2_refuted` [CEFN], `C71_implode_refuted` [CEFN]
* **C72** Restart at twice the resolution keeps averages and the zero divergence. *Plan:* Refinement by two of a file: index arithmetic, then divergence and totals over R. *Status:* proved. Whole-array refinement, divergence and totals, serial and parallel. C72_no_ghosts_refuted: without ghost cells in the file the last faces depend on uninitialised memory.
  - Thm_Io.v: `C72_refined` [-], `C72_refined_mpi` [-], `C72_divergence` [EFN], `C72_totals` [EFN], `C72_no_ghosts_refuted` [-]
* **C73** Restarting from a result file continues the run. *Plan:* Simulation relation between the original run from the snapshot on and the restarted run; in double precision both runs are functions of the stored data because the reduction maximum is exact. *Status:* partial. Proved for the 2D and 3D hydrodynamics solver (without gravity or with a zero field) and the 2D and 3D MHD solver over exact arithmetic, and in IEEE double precision without overflow for hydrodynamics and for the MHD variant with stored fluxes (C73_rounded_*), for snapshots at which no second output is due. Findings: the gravity field is not restored by a restart (C73_gravity_lost_refuted); with nOutput < 0 the numbering shifts by one (C73_every_step_refuted). Not covered: the atomic and low-memory MHD variants in double precision, overflow and NaN.
  - Thm_Restart.v: `C73_continue_2d` [EFN], `C73_continue_3d` [EFN], `C73_gravity_lost_refuted` [EFN], `C73_every_step_refuted` [EFN]
  - Thm_RestartMhd.v: `C73_continue_mhd_2d` [EFN], `C73_continue_mhd_3d` [EFN]
  - Thm_RestartRound.v: `C73_rounded_2d` [CEFN], `C73_rounded_3d` [CEFN], `C73_rounded_mhd_2d` [CEFN], `C73_rounded_mhd_3d` [CEFN]
* **C74** MHD Riemann solvers are mirror symmetric and upwind in supersonic flow. *Plan:* Write LLF/HLL/HLLD as fans (MhdFanSpec.v); mirror the fan; case analysis on the signs of the speeds; `_refuted` when a rotational wave overtakes an outer one. *Status:* proved. LLF and HLL unconditionally; HLLD when the rotational waves lie inside the outer ones. Finding: with a strong normal field they may not, and then HLLD neither takes the upstream state nor is mirror symmetric (two refutations).
  - Thm_MhdRiemann.v: `C74_mirror_hll_llf` [EFN], `C74_mirror_hlld` [EFN], `C74_upwind_hll` [EFN], `C74_upwind_hlld` [EFN], `C74_hlld_upwind_refuted` [EFN], `C74_hlld_mirror_refuted` [EFN]
* **C75** MHD interface fluxes come from a fan of waves obeying the jump conditions. *Plan:* Rankine-Hugoniot conditions wave by wave (field algebra), order of contact and outer speeds from the fast-speed polynomial. *Status:* proved. For HLLD outside the case that the code singles out as degenerate (and estar = 0, where it divides by zero, see C32). HLL and LLF for all states.
  - Thm_MhdRiemann.v: `C75_hlld_fan` [EFN], `C75_hll_fan` [EFN], `C75_llf_fan` [EFN]
* **C76** Each built-in hydrodynamics problem starts from the state its parameters describe. *Plan:* Kernels of all initial conditions; symbolic execution of the loop body, then algebra over R against a relational description of each problem (HydroInitSpec.v); settings where it fails are separate theorems, the disk axis in binary64. *Status:* partial. Proved for every problem under good_setting (HydroInitSpec.v); outside it the property is refuted: moving implosion, Kelvin-Helmholtz without random or rob perturbation, Gresho drift and 3D, vortex pressure, perturbed Rayleigh-Taylor, disk (pressure, displaced gravity, axis), default blast radius.
  - Thm_HydroInit.v: `C76_state` [CEFN], `C76_gravity` [CEFN], `C76_no_gravity` [CEFN], `C76_implode_moving` [CEFN], `C76_kh_untouched` [EFN], `C76_gresho_drift` [CEFN], `C76_gresho_3d` [CEFN], `C76_vortex_pressure` [CEFN], `C76_rayleigh` [CEFN], `C76_disk_pressure` [CEFN], `C76_disk_gravity_displaced` [CEFN], `C76_disk_gravity_refuted` [CEFN], `C76_disk_axis_nan` [-], `C76_default_blast_refuted` [CEFN]
* **C77** Problems meant as exact solutions start from one. *Plan:* The described states as functions of time and space; derivatives with Coquelicot; Euler equations with gravity in conservative form (FlowSpec.v); piecewise profiles by locality. *Status:* partial. Exact wherever the profiles are smooth; refuted: Gresho with a density other than 1, the Rayleigh-Taylor interface with oblique gravity, and the 2D disk with a softened source (C77_disk_softened_refuted: out of balance along the x axis within the inner radius). Not covered: the softened disk off the axis, beyond the inner radius and in 3D.
  - Thm_Flow.v: `C77_vortex` [CEFN], `C77_gresho` [CEFN], `C77_gresho_continuous` [CEFN], `C77_gresho_density_refuted` [CEFN], `C77_disk` [CEFN], `C77_rayleigh` [CEFN], `C77_bubble` [CEFN], `C77_rayleigh_jump` [CEFN]
  - Thm_FlowSoft.v: `C77_disk_softened_refuted` [CEFN]
* **C78** Every built-in four-quadrant configuration has a single wave at each side. *Plan:* Table of states; jump conditions and Riemann invariants with rational bounds for the sound speeds, checked by linear arithmetic. *Status:* proved. Numbers 5 and 9 refuted, the other seventeen proved.
  - Thm_Quadrant.v: `C78_single_waves` [EFN], `C78_config5_refuted` [EFN], `C78_config9_refuted` [EFN], `C78_quadrants_stored` [CEFN]
* **C79** The Newton Riemann solver returns the flux of a two-shock fan. *Plan:* Algebra of the jump conditions (ShockSpec.v); the velocity change is a concave function of the pressure, so every Newton step lands below the root; case analysis of the sampling. *Status:* proved.
  - Thm_Approx.v: `C79_two_shocks_2d` [EFN], `C79_two_shocks_3d` [EFN]
* **C80** The positivity correction of the spectral difference solver restores positive density and pressure and conserves. *Plan:* One cell as a function of its values and averages (SdmPos.v), lifted to all schedules; interpolation is affine, the set of states with pressure above a bound is convex, sign analysis of the quadratic for each choice of root. *Status:* proved. Positivity, movement towards the average, untouched good cells and conservation with true averages are proved for every schedule (C80_positive needs a flux density below the stored average, as holds whenever there is something to correct). Two findings are refutations: C80_density_refuted (the floor is undercut by 1e-13 times the spread) and C80_conservation_refuted (with the averages the solver really stores, a uniform cold cell gains mass).
  - Thm_Positivity.v: `C80_positive` [EFN], `C80_towards_average` [EFN], `C80_average` [CEFN], `C80_untouched` [EFN], `C80_density_refuted` [EFN], `C80_conservation_refuted` [CEFN]
* **C81** The slope limiter of the spectral difference solver limits cell by cell and leaves smooth data alone. *Plan:* The averages, gradients and limiter loops as tasks (SdmLim.v), their effect for any interleaving (SdmLimRun.v), and the result described with a relation for the limited slope and affine cells (SdmLimSpec.v); quadrature identities give exactness on linear fields. *Status:* proved. C81_limited characterises the limiter for every schedule; C81_kept, C81_average and C81_affine are its consequences, the last for the averages and gradients the solver computes. Three findings are refutations: C81_conservation_refuted (a cell that is changed gains mass, momentum and energy), C81_ghosts_refuted (the only layer of ghost cells is not limited, so periodic copies go out of step) and C81_speed_refuted (gamma E / rho is used as the sound speed).
  - Thm_Limiter.v: `C81_limited` [EFN], `C81_kept` [EFN], `C81_average` [CEFN], `C81_affine` [CEFN], `C81_conservation_refuted` [CEFN], `C81_speed_refuted` [EFN], `C81_ghosts_refuted` [CEFN]
* **C82** The viscous terms of the spectral difference solver add the divergence of the Newtonian stress. *Plan:* All loops of the viscous branch as tasks with the array of velocities, of gradients and the unset view explicit (SdmVisc.v), the composed effect for any interleaving (SdmViscProofs.v), evaluated on linear flows with the exactness of the interpolation matrices, and on a gas at rest in the IEEE instance. *Status:* proved. the stress formula holds; the five other parts of the property are refuted of the code (viscosity unused, mass, energy, force, gas at rest)
  - Thm_Viscous.v: `C82_stress` [EFN], `C82_viscosity_refuted` [EFN], `C82_mass_refuted` [CEFN], `C82_energy_refuted` [CEFN], `C82_force_refuted` [CEFN], `C82_rest_refuted` [-]
* **C83** The initial state of the spectral difference problems is the one their parameters prescribe. *Plan:* The ten init functors as one loop over cells and solution points, sharing the formulas of HydroInit.v (SdmInit.v); its effect for any interleaving, then problem by problem the stored values against the prescribed state (SdmInitSpec.v, SdmInitProofs.v); the defects as general refutations for the settings that trigger them. *Status:* proved. C83_state covers the settings of sgood; the defects are stated as refutations.
  - Thm_SdmInit.v: `C83_state` [CEFN], `C83_four_quadrant` [CEFN], `C83_four_quadrant_refuted` [CEFN], `C83_four_quadrant_3d_refuted` [CEFN], `C83_implosion_refuted` [CEFN], `C83_kelvin_helmholtz_refuted` [CEFN], `C83_gresho_refuted` [CEFN], `C83_vortex_pressure_refuted` [CEFN], `C83_vortex_centre_refuted` [CEFN], `C83_jet_gamma_refuted` [CEFN], `C83_shu_osher_shock` [EFN], `C83_wedge_shock` [CEFN]
* **C84** The wedge and jet problems of the spectral difference solver have the borders they describe. *Plan:* Each face as one loop over the ghost cells with a rule giving a fixed state or a copy (SdmBc.v); for any interleaving and any order of faces, the value of every ghost point including corners (SdmBcProofs.v), compared with the described borders (SdmBcSpec.v); the MPI build and the 3D wedge are refuted. *Status:* proved. Wedge 2D and jet 2D/3D borders for every ghost point; the MPI build (no jet enters, no front) and the 3D wedge are refuted.
  - Thm_SdmBc.v: `C84_wedge` [CEFN], `C84_jet` [CEFN], `C84_jet_mpi_refuted` [CEFN], `C84_wedge_front_refuted` [CEFN]
* **C85** A netCDF result file holds the global array. *Plan:* The buffer loop, the file box and the part of each process as in IO_PNETCDF.h (NetcdfModel.v), with the collective write of C53; position of the n-th appended cell by division and remainder (NetcdfProofs.v), the owner of every file position, then the contents of the file for any order of the writes. *Status:* proved. Every memory order of the writes; class-level statement for all problems, and through the library's call for 2D hydrodynamics. Refuted parts are findings: 3D and MHD saves are undefined, Fortran-order arrays are permuted, seams hold the previous step. Not modelled: attributes, file names, names of the dimensions.
  - Thm_Netcdf.v: `C85_global_array` [-], `C85_parts` [-], `C85_hydro_2d` [-], `C85_other_problems_refuted` [-], `C85_layout_left_refuted` [-], `C85_seams_refuted` [-], `C85_completes` [-]
* **C86** MOOD problems start from the prescribed state. *Plan:* The loops of MoodInitFunctors.h as one assignment per cell (MoodInit.v); each problem compared with the prescribed state at the position of the cell (MoodInitSpec.v, MoodInitProofs.v); the quadrature by its even moments, then integrals of polynomials (Coquelicot); memory read without being set is an argument of the model. *Status:* proved. Every problem in exact arithmetic. Defects: C86_decomposition_refuted, C86_vortex_energy_refuted, C86_vortex_3d_refuted, C86_points_refuted, C86_kelvin_helmholtz_refuted.
  - Thm_MoodInit.v: `C86_state` [CEFN], `C86_completes` [CEFN], `C86_decomposition_refuted` [CEFN], `C86_kelvin_helmholtz_refuted` [CEFN], `C86_quadrature` [CEFN], `C86_vortex` [CEFN], `C86_vortex_energy_refuted` [CEFN], `C86_vortex_3d_refuted` [CEFN], `C86_points_refuted` [CEFN]
* **C87** SDM result files show every solution point where it is. *Plan:* The loops of IO_VTK_SDM.h as lists (SdmVtk.v); a file is read back as VTK does, through offsets and connectivity, and compared with the positions of the solution points (SdmVtkSpec.v, SdmVtkProofs.v); tiling by the strictly increasing cuts between points; offsets by induction over the arrays. *Status:* proved. Node rounding to float, text rendering and machine integers are not modelled. Finding: debug saves of distributed runs overwrite the pieces of the normal save.
  - Thm_SdmVtk.v: `C87_subcell` [EFN], `C87_tiling` [EFN], `C87_scheme_points` [EFN], `C87_binary` [EFN], `C87_pieces` [-], `C87_debug_name_refuted` [-]
* **C88** The error functors measure the difference of two SDM solutions. *Plan:* The functor body and the reduction of SDM_Compute_error.h (SdmError.v) with the reduction semantics of ReduceModel.v; induction over the reduction tree, then a permutation of the points (Thm_SdmError.v). *Status:* proved. Over exact arithmetic; in floating point the sum depends on the order. Finding: NORM_L2 is the squared norm.
  - Thm_SdmError.v: `C88_value` [EFN], `C88_zero` [EFN], `C88_distance` [EFN], `C88_l2_refuted` [EFN]
* **C89** The XDMF index describes the result files of the run. *Plan:* The index as a list of entries with names, extents and references (XdmfModel.v), compared with the files of IoModel.v and the histories of LoopModel.v; case analysis on the settings, the numbering invariant of the run, decoding of the decimal number in the name (Thm_Xdmf.v). *Status:* proved. references resolve only when the output directory is the working directory (C89_directory_refuted); entry time is the output number (C89_time_refuted); single-step index lists one output too many (C89_single_step_refuted)
  - Thm_Xdmf.v: `C89_datasets` [-], `C89_datasets_mpi` [-], `C89_series` [-], `C89_names` [-], `C89_paths` [-], `C89_directory_refuted` [-], `C89_single_step_refuted` [-], `C89_time_refuted` [-]
* **C90** Borders of the double Mach reflection in the MOOD solver. *Plan:* The functor of BoundariesFunctorsWedge.h with its index decoding as programs (MoodWedge.v); race freedom of each face, effect per ghost cell, composition of the four faces (Thm_MoodWedge.v). *Status:* proved. 2D, one process; in 3D the solver uses the ordinary borders (C09)
  - Thm_MoodWedge.v: `C90_borders` [CEFN], `C90_front` [EFN]
* **C91** The solver's name decides a consistent run. *Plan:* The name tests of HydroParams::setup, the table of MOOD names and the registration map of the factory as functions of a string (FactoryModel.v); membership in the map, then case analysis on its entries; an independent list of offered solvers and their spelling (Thm_Factory.v). *Status:* proved. C91_accepted_refuted records that the parameters accept names the factory rejects; both checks are proved to agree on every run that starts.
  - Thm_Factory.v: `C91_names` [-], `C91_consistent` [-], `C91_unknown` [-], `C91_offered` [-], `C91_accepted_refuted` [-]
* **C92** The timing report adds up. *Plan:* The timers with a nondeterministic nondecreasing clock and the sequence of start and stop events of a run of each solver (TimerModel.v); induction over the steps with two compositional summaries, time passed and measurements made (Thm_Timer.v). *Status:* proved. Clock readings are exact reals that do not decrease. C92_io_refuted, C92_mhd_refuted and C92_perf_refuted record the findings.
  - Thm_Timer.v: `C92_exact` [EF], `C92_parts` [EF], `C92_perf_refuted` [EF], `C92_perf` [EF], `C92_io_refuted` [EF], `C92_mhd_refuted` [EF]
* **C93** A distributed run starts exactly if its process grid matches. *Plan:* The dimensions given to MPI_Cart_create, its success and the row-major coordinates by the MPI standard (TopoModel.v); arithmetic of quotients and remainders (Thm_Topo.v). *Status:* proved. MPI_Cart_create and MPI_Comm_rank by the MPI standard, errors fatal. C93_message_2d_refuted records the finding.
  - Thm_Topo.v: `C93_starts` [-], `C93_places` [-], `C93_message_3d` [-], `C93_message_2d_refuted` [-], `C93_coords` [-]

## Findings

Behaviour of the code, at the pinned commit, that contradicts what its interface suggests.  Each is a theorem.

* Parameter file: section names containing a dot clash with keys (C03), an indented comment after a value continues
  that value and spaces inside section headers matter (C04), lines longer than the buffer differ between the serial and MPI readers (C05).
* Boundaries: periodic directions thinner than the ghost width race (C10); unknown boundary codes (C12).
* A single-precision MPI build reduces `float` data as `double` (C14).  An arbitrary double `tEnd` may be passed by one ulp (C16).
  `nOutput < 0` writes the initial state twice (C18).
* Hydro: implementation 2 never advances the solution (C22); 3D implementation 1 differs with gravity (C21).
* MHD: unsupported slope types and the default Riemann solver leave values undefined (C26, C35); HLLD divides by zero for
  a strong purely normal field (C32) and loses the order of its waves (C74); 2D halves Bz in the primitive conversion (C39);
  divergence appears next to non-periodic sides (C36); the 3D low-memory variant differs (C37); initial pressures of
  several 2D problems are not those configured and the implosion's field may have a divergence (C40, C71).
* Hydro problems: see the list in C76 (moving implosion, Kelvin-Helmholtz left uninitialised, Gresho drift and 3D, vortex pressure,
  perturbed Rayleigh-Taylor, disk pressure, gravity centre and axis, default blast radius); Gresho with another density and the disk with a softened source are unbalanced (C77);
  configurations 5 and 9 of the four-quadrant table are wrong (C78).
* MOOD: fallback and detection defects (C48), stale polynomials in 3D (C49), wrong literals (C50), SSP-RK54 weights (C61),
  CFL step (C62), reconstruction not exact beyond degree one (C59), incomplete 3D stencil (C60).
* SDM: averages are scaled (C45), so the positivity correction creates mass (C80), which also undercuts its own density floor (C80); the slope limiter creates mass, momentum and energy wherever it acts, skips the ghost cells and uses gamma E / rho as sound speed (C81); the viscous terms differentiate the interpolated velocities instead of the viscous flux, read an unset view, average only component 0 at faces, divide gradients by du/dx and accumulate without erasing (C82); SSP-RK54 weights (C42, C70), sound speed squared (C67), four-quadrant positions half a cell off and nothing written in 3D (C08, C83), vortex centre outside the box, other default gamma of the jet (C83); MPI builds and the 3D wedge ignore the special borders (C84).
* Files: stale halos overwrite interior cells (C53), stacked files cannot be read (C53), 2D parallel VTK headers and offset overflow (C52),
  refinement without ghosts reads uninitialised memory (C72), restart loses gravity (C73);
  distributed MOOD runs start with the part of the first process everywhere, and the MOOD vortex has a wrong energy (C86),
  netCDF files of 3D and MHD runs are undefined, those of Fortran-order arrays are permuted, those of distributed runs hold the previous step at the seams (C85), debug saves of distributed SDM runs overwrite the pieces of the normal save (C87);
  the XDMF index drops the output directory, gives numbers for times, and lists one output too many in single-step mode (C89);
  HydroParams::setup accepts solver names that the factory does not know (C91);
  in the timing report the output can take more than 100 %, MHD counts the time step twice, and the performance counts ghost cells (C92);
  the message on inconsistent process grids is wrong in 2D with mz > 1 (C93).

## What is modelled and what is not

Modelled (files in /repo/src): main.cpp (loop), shared/{enums, kokkos_shared, real_type, HydroState, HydroParams, SolverFactory, SolverBase,
BoundariesFunctors, BoundariesFunctorsWedge, mpiBorderUtils, RiemannSolvers, RiemannSolvers_MHD, mhd_utils, EulerEquations}, shared/problems used by the modelled initial conditions,
muscl/{HydroBaseFunctor*, HydroRunFunctors*, HydroInitFunctors*, MHDBaseFunctor*, MHDRunFunctors*, MHDInitFunctors*, SolverHydroMuscl, SolverMHDMuscl},
mood/{Binomial, monomials_ordering, MonomialMap, Polynomial, GeometricTerms, Matrix, QuadratureRules, Stencil, StencilUtils (solver names), MoodBaseFunctor,
MoodPolynomialReconstructionFunctors, MoodFluxesFunctors, MoodUpdateFunctors, MoodDtFunctor, MoodInitFunctors, SolverHydroMood},
sdm/{SDM_Geometry, SDMBaseFunctor, SDM_Interpolate_Functors, SDM_Flux_Functors, SDM_Run_Functors, SDM_Boundaries_Functors, SDM_Boundaries_Functors_Jet, SDM_Boundaries_Functors_Wedge, SDM_Dt_Functor, SDM_Positivity_preserving, SDM_Limiter_Functors, SDM_Viscous_Flux_Functors, SDM_Compute_error, SDM_Interpolate_viscous_Functors, init/*, SolverHydroSDM}, utils/config/*, utils/monitoring/{OpenMPTimer, SimpleTimer}, shared/solver_utils, utils/io/{IO_PNETCDF, IO_HDF5 (Save, Load, serial and parallel), IO_VTK, IO_VTK_SDM, IO_ReadWrite}, utils/mpiUtils/{MpiComm, MpiCommCart}.

Not modelled: the constant tags and the geometry of the XDMF text, IO_VTK_SDM_Flux.h;
CudaTimer, PAPI, GlobalMpiSession, Kokkos back ends (memory model: sequential consistency), MPI derived datatypes beyond the ones named
above; machine integers except where a theorem is about them; getFloat's text to float conversion; text formatting of floats; the LAPACK
routines (by contract) and the HDF5 library (abstract file with hyperslab semantics).

## Trusted base

* Coq 8.16.1's kernel (with its virtual machine: closed computations use `vm_compute`/`vm_cast_no_check`).
* The axioms listed per theorem above; all from Coq's standard library.  No axiom, parameter, admitted proof or disabled check in this development.
* The transcription of the C++ code into the model, and the semantics chosen for Kokkos, MPI, HDF5 and libc functions.
* The English reading of the specification files.
