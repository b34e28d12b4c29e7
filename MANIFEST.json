{
 "claims": [
  {
   "property": "C01",
   "status": "proved",
   "theorems": [
    "C01_last_assignment_wins",
    "C01_answer_unique",
    "C01_case"
   ],
   "note": "Section names without a dot (C03_dot_refuted shows why)."
  },
  {
   "property": "C02",
   "status": "proved",
   "theorems": [
    "C02_string",
    "C02_integer",
    "C02_bool",
    "C02_others"
   ],
   "note": ""
  },
  {
   "property": "C03",
   "status": "proved",
   "theorems": [
    "C03_distinct",
    "C03_dot_refuted"
   ],
   "note": "For sections without a dot; C03_dot_refuted shows the exception named in the statement."
  },
  {
   "property": "C04",
   "status": "proved",
   "theorems": [
    "C04_file",
    "C04_every_file",
    "C04_buffer",
    "C04_useless_lines",
    "C04_spacing",
    "C04_indented_comment_refuted",
    "C04_section_space_refuted"
   ],
   "note": "The parser is proved equal to a declarative grammar of lines and files (ConfigSpec.v). The two exceptions named in the statement are C04_indented_comment_refuted and C04_section_space_refuted."
  },
  {
   "property": "C05",
   "status": "proved",
   "theorems": [
    "C05_same_configuration",
    "C05_long_comment_refuted",
    "C05_long_value_refuted"
   ],
   "note": "Lines of at most 198 characters; the exception named in the statement is shown by two _refuted theorems."
  },
  {
   "property": "C06",
   "status": "proved",
   "theorems": [
    "C06_integer",
    "C06_bool"
   ],
   "note": "strtol is modelled from the C standard with a 64-bit long. getFloat is not modelled."
  },
  {
   "property": "C07",
   "status": "proved",
   "theorems": [
    "C07_coord_index_roundtrip_2d",
    "C07_index_coord_roundtrip_2d",
    "C07_coord_index_roundtrip_3d",
    "C07_index_coord_roundtrip_3d"
   ],
   "note": "Both layouts, all sizes; machine overflow not modelled."
  },
  {
   "property": "C08",
   "status": "proved",
   "theorems": [
    "C08_cell_size",
    "C08_centre",
    "C08_sdm_point",
    "C08_centre_is_midpoint",
    "C08_sdm_point_in_cell",
    "C08_four_quadrant_refuted",
    "C08_initial_data"
   ],
   "note": "Cell sizes, centres and SDM solution points in any arithmetic; C08_four_quadrant_refuted: the 2D four-quadrant SDM problem evaluates its initial condition half a cell off."
  },
  {
   "property": "C09",
   "status": "proved",
   "theorems": [
    "C09_boundary_fill_2d",
    "C09_boundary_fill_3d",
    "C09_interior_unchanged_2d",
    "C09_interior_unchanged_3d",
    "C09_image_is_interior"
   ],
   "note": "Any arithmetic, any interleaving, 2D/3D, hydro/MHD."
  },
  {
   "property": "C10",
   "status": "proved",
   "theorems": [
    "C10_boundary_in_bounds_2d",
    "C10_boundary_in_bounds_3d",
    "C10_boundary_schedule_independent_2d",
    "C10_boundary_schedule_independent_3d",
    "C10_schedule_independence_thin_refuted"
   ],
   "note": "In bounds for all sizes; schedule independent when no_race_f; refuted for periodic directions thinner than the ghost width."
  },
  {
   "property": "C11",
   "status": "proved",
   "theorems": [
    "C11_boundary_idempotent_2d",
    "C11_boundary_idempotent_3d"
   ],
   "note": ""
  },
  {
   "property": "C12",
   "status": "proved",
   "theorems": [
    "C12_exchange_2d",
    "C12_exchange_3d",
    "C12_unknown_code_refuted"
   ],
   "note": "All process grids, layouts and asynchronous executions, 2D and 3D, exact and rounded arithmetic, for the four documented boundary codes. C12_unknown_code_refuted shows the exception named in the statement."
  },
  {
   "property": "C13",
   "status": "proved",
   "theorems": [
    "C13_exchange",
    "C13_iterations",
    "C13_neighbours_mutual",
    "C13_iterations_mhd"
   ],
   "note": "Eager and rendezvous sends; one exchange and runs of n iterations, hydro and MHD (C13_iterations_mhd)."
  },
  {
   "property": "C14",
   "status": "proved",
   "theorems": [
    "C14_global_dt",
    "C14_equals_serial_2d",
    "C14_equals_serial_3d",
    "C14_single_precision_refuted",
    "C14_global_dt_mhd"
   ],
   "note": "Exact arithmetic and binary64 rounding (no overflow or NaN), hydro and MHD (C14_global_dt_mhd). C14_single_precision_refuted shows the exception named in the statement."
  },
  {
   "property": "C15",
   "status": "proved",
   "theorems": [
    "C15_distributed_run_2d",
    "C15_distributed_run_3d",
    "C15_exact_2d",
    "C15_exact_3d",
    "C15_finish_together",
    "C15_mhd_2d",
    "C15_mhd_3d"
   ],
   "note": "Hydro: any number of iterations of impl 0 and 1, with or without gravity, exact arithmetic and binary64 rounding (no overflow or NaN); in binary64 the signal rates of the single-process run are assumed positive (division by zero is not modelled). MHD (C15_mhd_2d, C15_mhd_3d): any number of iterations of every implementation variant, exact arithmetic, all boundary codes, no rotating frame."
  },
  {
   "property": "C16",
   "status": "proved",
   "theorems": [
    "C16_time",
    "C16_stops",
    "C16_reaches_end",
    "C16_time_hydro_2d",
    "C16_time_hydro_3d",
    "C16_time_double",
    "C16_time_double_any_end_refuted"
   ],
   "note": "Exact arithmetic for any positive time-step rule, instantiated for the 2D/3D hydro solver; also with binary64 rounding (Flocq) when tEnd is a single-precision value, as getFloat makes it; refuted for an arbitrary double tEnd (overshoot by one ulp)."
  },
  {
   "property": "C17",
   "status": "proved",
   "theorems": [
    "C17_bounded",
    "C17_terminates",
    "C17_terminates_hydro_2d",
    "C17_terminates_hydro_3d",
    "C17_terminates_mhd_2d",
    "C17_terminates_mhd_3d"
   ],
   "note": "Loop length bounded by nStepmax for any dynamics; the loop can always be completed when nlog is not 0 (nlog = 0 is a division by zero in the code), in particular by the hydrodynamics and MHD solvers."
  },
  {
   "property": "C18",
   "status": "proved",
   "theorems": [
    "C18_numbering",
    "C18_no_output",
    "C18_initial_and_final_saved",
    "C18_cadence",
    "C18_every_step",
    "C18_initial_written_twice"
   ],
   "note": "Numbering, first/last snapshot, cadence, nOutput = 0 and nOutput < 0; finding: with nOutput < 0 the initial state is written twice (files 0 and 1)."
  },
  {
   "property": "C19",
   "status": "proved",
   "theorems": [
    "C19_run_is_trajectory_2d",
    "C19_run_is_trajectory_3d",
    "C19_two_buffers"
   ],
   "note": "The memory-level run refines a trajectory of the pure scheme, for any arithmetic, 2D and 3D hydro; generic two-buffer theorem for any other scheme."
  },
  {
   "property": "C20",
   "status": "proved",
   "theorems": [
    "C20_flux_balance_2d",
    "C20_flux_balance_3d",
    "C20_conservation_periodic_2d",
    "C20_conservation_periodic_3d",
    "C20_run_conserves_2d",
    "C20_run_conserves_3d"
   ],
   "note": "One step, exact real arithmetic, all supported Riemann solvers and slope types, versions 0 and 1; multi-step and reflecting-wall forms are separate theorems where present."
  },
  {
   "property": "C21",
   "status": "proved",
   "theorems": [
    "C21_versions_agree_2d",
    "C21_versions_agree_3d_no_gravity",
    "C21_versions_agree_3d_gravity_refuted"
   ],
   "note": "Bitwise agreement in 2D (gravity included) and 3D without gravity; the 3D gravity case is refuted by a concrete run."
  },
  {
   "property": "C22",
   "status": "proved",
   "theorems": [
    "C22_version2_freezes_2d",
    "C22_version2_freezes_3d",
    "C22_every_version_advances_2d_refuted",
    "C22_every_version_advances_3d_refuted"
   ],
   "note": "The property is false for version 2: proved that version 2 copies the interior unchanged for all data, with a concrete run where versions 0 and 1 do change the data."
  },
  {
   "property": "C23",
   "status": "proved",
   "theorems": [
    "C23_schedule_independent_2d",
    "C23_schedule_independent_3d",
    "C23_memory_safe_2d",
    "C23_memory_safe_3d",
    "C23_no_uninitialised_3d"
   ],
   "note": "All versions, any arithmetic, any interleaving."
  },
  {
   "property": "C24",
   "status": "proved",
   "theorems": [
    "C24_uniform_flow_2d",
    "C24_uniform_flow_3d"
   ],
   "note": "Periodic and outflow sides in any combination; every supported Riemann solver (no consistency hypothesis is needed, equal fluxes cancel)."
  },
  {
   "property": "C25",
   "status": "proved",
   "theorems": [
    "C25_limiter_2d",
    "C25_limiter_3d"
   ],
   "note": "Limited slopes for any data (2D/3D, both slope types); face values lie between neighbours."
  },
  {
   "property": "C26",
   "status": "proved",
   "theorems": [
    "C26_mhd_types_1_2_defined_2d",
    "C26_mhd_other_types_refuted",
    "C26_mhd_step_defined_2d",
    "C26_mhd_other_types_zero_3d",
    "C26_mhd_step_defined_3d",
    "C26_hydro_types_0_1_2_defined_2d",
    "C26_hydro_types_0_1_2_defined_3d",
    "C26_hydro_other_types_refuted"
   ],
   "note": "Hydro slope types and MHD in 2D and 3D: types 1 and 2 defined; all others leave the MHD slopes undefined in 2D and in the low-memory variant (refuted), and give zero slopes in 3D variants 0 and 1."
  },
  {
   "property": "C27",
   "status": "proved",
   "theorems": [
    "C27_floors_2d",
    "C27_floors_3d",
    "C27_round_trip_2d",
    "C27_round_trip_3d",
    "C27_inverse_2d",
    "C27_inverse_3d"
   ],
   "note": "Floors, inverse and round trip of the primitive conversion over the reals."
  },
  {
   "property": "C28",
   "status": "proved",
   "theorems": [
    "C28_cfl_2d",
    "C28_cfl_3d",
    "C28_cfl_gravity_2d",
    "C28_cfl_gravity_3d",
    "C28_schedule_independent_2d",
    "C28_schedule_independent_3d"
   ],
   "note": "CFL bound for every schedule of the max reduction, with and without gravity."
  },
  {
   "property": "C29",
   "status": "proved",
   "theorems": [
    "C29_locality_2d",
    "C29_locality_3d",
    "C29_locality_interior_2d",
    "C29_locality_interior_3d"
   ],
   "note": "Any arithmetic; distance measured as |di|+|dj|(+|dk|) <= 2."
  },
  {
   "property": "C30",
   "status": "proved",
   "theorems": [
    "C30_exchange_xy_2d",
    "C30_exchange_xy_3d",
    "C30_exchange_xz_3d"
   ],
   "note": "x<->y (2D, 3D) and x<->z (3D) for all solvers; 3D version 1 with gravity excluded (C21 refutation)"
  },
  {
   "property": "C31",
   "status": "proved",
   "theorems": [
    "C31_gravity_source_2d",
    "C31_gravity_source_3d"
   ],
   "note": "Gravity source changes energy by exactly the kinetic-energy change."
  },
  {
   "property": "C32",
   "status": "proved",
   "theorems": [
    "C32_mhd_consistent",
    "C32_hlld_normal_field_refuted",
    "C32_consistent_2d",
    "C32_consistent_3d"
   ],
   "note": "All hydro solvers and the MHD solvers llf, hll, hlld; hlld excludes the degenerate purely normal field, where a NaN in double precision is exhibited."
  },
  {
   "property": "C33",
   "status": "partial",
   "theorems": [
    "C33_mirror_approx_stagnant_2d_partial",
    "C33_mirror_approx_stagnant_3d_partial",
    "C33_mirror_2d",
    "C33_mirror_3d",
    "C33_mirror_approx_2d_partial",
    "C33_mirror_approx_3d_partial"
   ],
   "note": "Full for LLF, HLL, HLLC; Newton solver unless the computed contact speed is exactly zero and an outer shock is on the wrong side of it."
  },
  {
   "property": "C34",
   "status": "proved",
   "theorems": [
    "C34_upwind_2d",
    "C34_upwind_3d",
    "C34_contact_2d",
    "C34_contact_3d",
    "C34_transverse_3d"
   ],
   "note": "HLL/HLLC supersonic upwinding; HLLC and Newton resolve every contact, moving or not; transverse momentum."
  },
  {
   "property": "C35",
   "status": "proved",
   "theorems": [
    "C35_names_mhd",
    "C35_names_2d",
    "C35_names_3d"
   ],
   "note": "Exact characterisation of the names that define the flux, hydro and MHD: the default and every unknown name select approx, which leaves the MHD flux undefined."
  },
  {
   "property": "C36",
   "status": "proved",
   "theorems": [
    "C36_divB_interior_2d",
    "C36_divB_interior_run_2d",
    "C36_divB_periodic_2d",
    "C36_divB_periodic_run_2d",
    "C36_divB_boundary_layer_refuted",
    "C36_divB_interior_3d",
    "C36_divB_interior_run_3d",
    "C36_divB_periodic_3d",
    "C36_divB_periodic_run_3d"
   ],
   "note": "2D and 3D, all variants, one step and whole runs; the failure next to a non-periodic side, announced in the statement, is exhibited in double precision (2D). The 3D periodic theorems assume no rotating frame, which every configuration of the code satisfies (Omega0 is never set)."
  },
  {
   "property": "C37",
   "status": "proved",
   "theorems": [
    "C37_variants_agree_2d",
    "C37_stored_atomic_agree_2d",
    "C37_stored_atomic_agree_3d",
    "C37_low_memory_3d_refuted",
    "C37_deterministic_3d"
   ],
   "note": "2D: all three variants agree. 3D: variants 0 and 1 agree and each variant is deterministic; variant 2 differs (C37_low_memory_3d_refuted: divergence-free field, no rotation), as announced in the statement."
  },
  {
   "property": "C38",
   "status": "proved",
   "theorems": [
    "C38_balance_2d",
    "C38_conserved_2d",
    "C38_conserved_run_2d",
    "C38_balance_3d",
    "C38_conserved_3d",
    "C38_conserved_run_3d"
   ],
   "note": "2D and 3D: balance, and conservation with periodic boundaries for one step and whole runs (3D: no rotating frame, as in every configuration)."
  },
  {
   "property": "C39",
   "status": "proved",
   "theorems": [
    "C39_primitives_2d_partial",
    "C39_primitives_2d_refuted",
    "C39_pressure_2d_refuted",
    "C39_primitives_3d"
   ],
   "note": "3D: proved, also for non-uniform face fields. 2D: holds for an in-plane field; refuted for the z component (halved) and the pressure, as announced in the statement."
  },
  {
   "property": "C40",
   "status": "proved",
   "theorems": [
    "C40_div2",
    "C40_div3",
    "C40_implode_interface",
    "C40_implode_refuted"
   ],
   "note": "All seven MHD problems, 2D and 3D, any schedule; periodic faces for the loop and the wave, no reflecting wall otherwise, contained loop. Finding: the implosion configured with different fields in its two regions has nonzero divergence along the interface (C40_implode_refuted)."
  },
  {
   "property": "C41",
   "status": "proved",
   "theorems": [
    "C41_sol2flux",
    "C41_flux2sol",
    "C41_flux2sol_derivative",
    "C41_sol2sol_derivative",
    "C41_points"
   ],
   "note": "Four exactness theorems for every order and every family of distinct points; C41_points shows the tabulated Chebyshev/Legendre points of N=1..6 meet the hypotheses."
  },
  {
   "property": "C42",
   "status": "proved",
   "theorems": [
    "C42_telescope",
    "C42_flux_form",
    "C42_conserve",
    "C42_conserve_rk54_refuted"
   ],
   "note": "Telescoping of the derivative matrix, conservation form with a consistent numerical flux, conservation of totals on periodic domains for forward Euler, RK2, RK3. C42_conserve_rk54_refuted: SSP-RK54 multiplies totals by 1+1e-15. Zero divergence of a uniform state is C70_sdm_uniform."
  },
  {
   "property": "C43",
   "status": "proved",
   "theorems": [
    "C43_DofMap",
    "C43_DofMapFlux"
   ],
   "note": "Range, injectivity and surjectivity for every order, direction and number of variables."
  },
  {
   "property": "C44",
   "status": "proved",
   "theorems": [
    "C44_mood_rk2",
    "C44_mood_rk3",
    "C44_sdm_rk2",
    "C44_sdm_rk3"
   ],
   "note": "RK2 and RK3 of the MOOD and SDM solvers are the convex combinations of forward Euler steps. The SSP-RK54 case is refuted: C61_ssprk54_refuted (MOOD), C42_conserve_rk54_refuted and C70_sdm_uniform_rk54_refuted (SDM)."
  },
  {
   "property": "C45",
   "status": "proved",
   "theorems": [
    "C45_average_refuted"
   ],
   "note": "Refuted: for every order and dimension the average of a non-zero constant differs from it (theorem C45_average_refuted gives the exact factor)."
  },
  {
   "property": "C46",
   "status": "proved",
   "theorems": [
    "C46_terminates",
    "C46_exactly_once",
    "C46_order",
    "C46_count"
   ],
   "note": "The loop of init_map is modelled as written (mono_next_grlex); dims 2 and 3, all degrees."
  },
  {
   "property": "C47",
   "status": "proved",
   "theorems": [
    "C47_template",
    "C47_template_total",
    "C47_runtime",
    "C47_runtime_defined",
    "C47_runtime_total_refuted"
   ],
   "note": "Template and run-time function; the run-time one is exact whenever it returns, total for n<=29 and shown to overflow int at (30,15)."
  },
  {
   "property": "C48",
   "status": "partial",
   "theorems": [
    "C48_balance2",
    "C48_balance3",
    "C48_conserve_partial",
    "C48_flags2_partial",
    "C48_fallback2_partial",
    "C48_flags3_partial",
    "C48_fallback3_partial",
    "C48_conserve_rk2_partial",
    "C48_conserve_rk3_partial",
    "C48_periodic_refuted",
    "C48_fallback_refuted",
    "C48_pressure_refuted",
    "C48_zscale_refuted"
   ],
   "note": "Flux balance of the totals in 2D and 3D (forward Euler); periodic conservation in 2D for forward Euler and the two- and three-stage integrators while no cell of the first row or column is flagged; semantics of the detection and fallback loops in 2D and 3D. Refuted in IEEE arithmetic: conservation with a flagged cell at the periodic boundary, positivity after the fallback, detection of negative pressure, scaling of z fluxes in 3D. Not claimed: periodic conservation in 3D, where the first layer of ghost polynomials is stale (C49_stale_refuted)."
  },
  {
   "property": "C49",
   "status": "proved",
   "theorems": [
    "C49_fresh2",
    "C49_stale_refuted"
   ],
   "note": "2D: the new state is a function of the old interior state for every integrator. 3D: refuted (uniform gas at rest changes)."
  },
  {
   "property": "C50",
   "status": "proved",
   "theorems": [
    "C50_moment2",
    "C50_moment3",
    "C50_points_suffice",
    "C50_face2",
    "C50_face3",
    "C50_constants",
    "C50_sqrt_3_5_digits_refuted"
   ],
   "note": "Moments against Coquelicot integrals; quadratures exact for the true square roots, decimal constants bounded (and the SQRT_3_5 literal shown not to have the digits it is written with). C50 rests on Coquelicot and hence Classical_Prop.classic."
  },
  {
   "property": "C51",
   "status": "proved",
   "theorems": [
    "C51_inverse",
    "C51_jacobian"
   ],
   "note": "Both compositions are the identity, and the transforms diagonalise the Jacobian of the Euler flux with the wave speeds un-c, un+c, un."
  },
  {
   "property": "C52",
   "status": "proved",
   "theorems": [
    "C52_ascii",
    "C52_binary",
    "C52_no_overflow",
    "C52_offset_overflow_refuted",
    "C52_pieces",
    "C52_pieces2_refuted"
   ],
   "note": "ASCII and binary VTK files, serial and per process: names, order, offsets, block sizes; parallel 3D header. Findings: int overflow of the offsets beyond 2^31 values in front of a variable (C52_offset_overflow_refuted), and 2D parallel headers announce pieces one cell thick (C52_pieces2_refuted)."
  },
  {
   "property": "C53",
   "status": "proved",
   "theorems": [
    "C53_roundtrip",
    "C53_roundtrip_mpi",
    "C53_roundtrip_halo",
    "C53_roundtrip_halo_refuted",
    "C53_portable",
    "C53_serial_to_parallel",
    "C53_parallel_to_serial",
    "C53_stacked_refuted"
   ],
   "note": "Round trip of every interior value (whole array with ghosts) with step and time, serial and parallel, any layouts, any write order; portability across decompositions. With overlapping ghost layers it holds if the halos agree; C53_roundtrip_halo_refuted shows stale ghosts overwrite interior cells. Files with reassembleInFile=no cannot be read back (C53_stacked_refuted). The HDF5 library itself is a small specification in IoModel.v."
  },
  {
   "property": "C54",
   "status": "proved",
   "theorems": [
    "C54_reflection_2d",
    "C54_reflection_3d"
   ],
   "note": "hll, hllc, llf"
  },
  {
   "property": "C55",
   "status": "proved",
   "theorems": [
    "C55_run_closed_2d",
    "C55_run_closed_3d",
    "C55_closed_domain_2d",
    "C55_closed_domain_3d"
   ],
   "note": "hll, hllc, llf; without gravity"
  },
  {
   "property": "C56",
   "status": "proved",
   "theorems": [
    "C56_mhd_cfl_2d",
    "C56_fast_speed",
    "C56_mhd_cfl_3d"
   ],
   "note": "2D and 3D."
  },
  {
   "property": "C57",
   "status": "proved",
   "theorems": [
    "C57_mhd_uniform_2d",
    "C57_mhd_uniform_3d"
   ],
   "note": "2D and 3D (3D: no rotating frame, as in every configuration)."
  },
  {
   "property": "C58",
   "status": "proved",
   "theorems": [
    "C58_emf_consistent",
    "C58_emf_branches"
   ],
   "note": "All three orientations; branch selection away from zero speeds."
  },
  {
   "property": "C59",
   "status": "proved",
   "theorems": [
    "C59_coefficients",
    "C59_linear_exact",
    "C59_offset",
    "C59_exact_refuted",
    "C59_least_squares",
    "C59_junk_refuted"
   ],
   "note": "Linear exactness proved; exactness for degree >=2 refuted for every stencil and cell size; least squares optimality proved. LAPACK/BLAS enter through the contract pseudo_inverse; unwritten stack entries are an argument."
  },
  {
   "property": "C60",
   "status": "proved",
   "theorems": [
    "C60_full_rank",
    "C60_left_inverse",
    "C60_stencil_complete_refuted",
    "C60_stencils"
   ],
   "note": "Rank by verified integer elimination; existence of the QR-based pseudo-inverse by Gram-Schmidt. The incompleteness of the 3D degree-4 stencil is a refutation."
  },
  {
   "property": "C61",
   "status": "proved",
   "theorems": [
    "C61_ssprk54_refuted"
   ],
   "note": "FE, RK2 and RK3 are covered by C44/C48; SSP-RK54 is refuted for all data."
  },
  {
   "property": "C62",
   "status": "proved",
   "theorems": [
    "C62_rescale",
    "C62_rescale_refuted"
   ],
   "note": "Holds when the CFL step is at most one; refuted for every CFL step above one and degree above 2. Real arithmetic."
  },
  {
   "property": "C63",
   "status": "proved",
   "theorems": [
    "C63_deterministic"
   ],
   "note": "All integrators, 2D and 3D, any arithmetic, every interleaving."
  },
  {
   "property": "C64",
   "status": "proved",
   "theorems": [
    "C64_memory_safe"
   ],
   "note": "All integrators, 2D and 3D, dynamic safety in every reachable configuration."
  },
  {
   "property": "C65",
   "status": "proved",
   "theorems": [
    "C65_uniform2"
   ],
   "note": "2D for every integrator, stencil and reconstruction matrix (real arithmetic); 3D refuted by C49_stale_refuted."
  },
  {
   "property": "C66",
   "status": "proved",
   "theorems": [
    "C66_sdm_ghosts"
   ],
   "note": "Every ghost cell, including corners, all boundary types, any arithmetic, any schedule."
  },
  {
   "property": "C67",
   "status": "partial",
   "theorems": [
    "C67_sdm_cfl_partial",
    "C67_sdm_cfl_refuted",
    "C67_sdm_rescale",
    "C67_sdm_rescale_refuted"
   ],
   "note": "Proved where the speed of sound is at least one; refuted (C67_sdm_cfl_refuted) where it is below one, because compute_speed_of_sound returns the square. Rescaled step: C67_sdm_rescale, C67_sdm_rescale_refuted."
  },
  {
   "property": "C68",
   "status": "proved",
   "theorems": [
    "C68_sdm_deterministic"
   ],
   "note": "All four integrators, any arithmetic, any schedule."
  },
  {
   "property": "C69",
   "status": "proved",
   "theorems": [
    "C69_sdm_memory_safe"
   ],
   "note": "All four integrators, any arithmetic, any schedule."
  },
  {
   "property": "C70",
   "status": "proved",
   "theorems": [
    "C70_sdm_uniform",
    "C70_sdm_uniform_rk54_refuted"
   ],
   "note": "Forward Euler, RK2, RK3; refuted for SSP-RK54 (C70_sdm_uniform_rk54_refuted)."
  },
  {
   "property": "C71",
   "status": "partial",
   "theorems": [
    "C71_pressure3",
    "C71_pressure2",
    "C71_blast2_refuted",
    "C71_loop2_refuted",
    "C71_implode_refuted"
   ],
   "note": "3D: proved for blast, implosion at rest, Orszag-Tang, Kelvin-Helmholtz, rotor and field loop. 2D: proved for Orszag-Tang, Kelvin-Helmholtz, rotor and implosion at rest. Findings: the 2D blast and the 2D field loop start with another pressure, and so does a moving implosion region whose density is not 1. The wave is a perturbation and prescribes no pressure pointwise."
  },
  {
   "property": "C72",
   "status": "proved",
   "theorems": [
    "C72_refined",
    "C72_refined_mpi",
    "C72_divergence",
    "C72_totals",
    "C72_no_ghosts_refuted"
   ],
   "note": "Whole-array refinement, divergence and totals, serial and parallel. C72_no_ghosts_refuted: without ghost cells in the file the last faces depend on uninitialised memory."
  },
  {
   "property": "C73",
   "status": "partial",
   "theorems": [
    "C73_continue_2d",
    "C73_continue_3d",
    "C73_gravity_lost_refuted",
    "C73_every_step_refuted",
    "C73_continue_mhd_2d",
    "C73_continue_mhd_3d",
    "C73_rounded_2d",
    "C73_rounded_3d",
    "C73_rounded_mhd_2d",
    "C73_rounded_mhd_3d"
   ],
   "note": "Proved for the 2D and 3D hydrodynamics solver (without gravity or with a zero field) and the 2D and 3D MHD solver over exact arithmetic, and in IEEE double precision without overflow for hydrodynamics and for the MHD variant with stored fluxes (C73_rounded_*), for snapshots at which no second output is due. Findings: the gravity field is not restored by a restart (C73_gravity_lost_refuted); with nOutput < 0 the numbering shifts by one (C73_every_step_refuted). Not covered: the atomic and low-memory MHD variants in double precision, overflow and NaN."
  },
  {
   "property": "C74",
   "status": "proved",
   "theorems": [
    "C74_mirror_hll_llf",
    "C74_mirror_hlld",
    "C74_upwind_hll",
    "C74_upwind_hlld",
    "C74_hlld_upwind_refuted",
    "C74_hlld_mirror_refuted"
   ],
   "note": "LLF and HLL unconditionally; HLLD when the rotational waves lie inside the outer ones. Finding: with a strong normal field they may not, and then HLLD neither takes the upstream state nor is mirror symmetric (two refutations)."
  },
  {
   "property": "C75",
   "status": "proved",
   "theorems": [
    "C75_hlld_fan",
    "C75_hll_fan",
    "C75_llf_fan"
   ],
   "note": "For HLLD outside the case that the code singles out as degenerate (and estar = 0, where it divides by zero, see C32). HLL and LLF for all states."
  },
  {
   "property": "C76",
   "status": "partial",
   "theorems": [
    "C76_state",
    "C76_gravity",
    "C76_no_gravity",
    "C76_implode_moving",
    "C76_kh_untouched",
    "C76_gresho_drift",
    "C76_gresho_3d",
    "C76_vortex_pressure",
    "C76_rayleigh",
    "C76_disk_pressure",
    "C76_disk_gravity_displaced",
    "C76_disk_gravity_refuted",
    "C76_disk_axis_nan",
    "C76_default_blast_refuted"
   ],
   "note": "Proved for every problem under good_setting (HydroInitSpec.v); outside it the property is refuted: moving implosion, Kelvin-Helmholtz without random or rob perturbation, Gresho drift and 3D, vortex pressure, perturbed Rayleigh-Taylor, disk (pressure, displaced gravity, axis), default blast radius."
  },
  {
   "property": "C77",
   "status": "partial",
   "theorems": [
    "C77_vortex",
    "C77_gresho",
    "C77_gresho_continuous",
    "C77_gresho_density_refuted",
    "C77_disk",
    "C77_rayleigh",
    "C77_bubble",
    "C77_rayleigh_jump",
    "C77_disk_softened_refuted"
   ],
   "note": "Exact wherever the profiles are smooth; refuted: Gresho with a density other than 1, the Rayleigh-Taylor interface with oblique gravity, and the 2D disk with a softened source (C77_disk_softened_refuted: out of balance along the x axis within the inner radius). Not covered: the softened disk off the axis, beyond the inner radius and in 3D."
  },
  {
   "property": "C78",
   "status": "proved",
   "theorems": [
    "C78_single_waves",
    "C78_config5_refuted",
    "C78_config9_refuted",
    "C78_quadrants_stored"
   ],
   "note": "Numbers 5 and 9 refuted, the other seventeen proved."
  },
  {
   "property": "C79",
   "status": "proved",
   "theorems": [
    "C79_two_shocks_2d",
    "C79_two_shocks_3d"
   ],
   "note": ""
  },
  {
   "property": "C80",
   "status": "proved",
   "theorems": [
    "C80_positive",
    "C80_towards_average",
    "C80_average",
    "C80_untouched",
    "C80_density_refuted",
    "C80_conservation_refuted"
   ],
   "note": "Positivity, movement towards the average, untouched good cells and conservation with true averages are proved for every schedule (C80_positive needs a flux density below the stored average, as holds whenever there is something to correct). Two findings are refutations: C80_density_refuted (the floor is undercut by 1e-13 times the spread) and C80_conservation_refuted (with the averages the solver really stores, a uniform cold cell gains mass)."
  },
  {
   "property": "C81",
   "status": "proved",
   "theorems": [
    "C81_limited",
    "C81_kept",
    "C81_average",
    "C81_affine",
    "C81_conservation_refuted",
    "C81_speed_refuted",
    "C81_ghosts_refuted"
   ],
   "note": "C81_limited characterises the limiter for every schedule; C81_kept, C81_average and C81_affine are its consequences, the last for the averages and gradients the solver computes. Three findings are refutations: C81_conservation_refuted (a cell that is changed gains mass, momentum and energy), C81_ghosts_refuted (the only layer of ghost cells is not limited, so periodic copies go out of step) and C81_speed_refuted (gamma E / rho is used as the sound speed)."
  },
  {
   "property": "C82",
   "status": "proved",
   "theorems": [
    "C82_stress",
    "C82_viscosity_refuted",
    "C82_mass_refuted",
    "C82_energy_refuted",
    "C82_force_refuted",
    "C82_rest_refuted"
   ],
   "note": "the stress formula holds; the five other parts of the property are refuted of the code (viscosity unused, mass, energy, force, gas at rest)"
  },
  {
   "property": "C83",
   "status": "proved",
   "theorems": [
    "C83_state",
    "C83_four_quadrant",
    "C83_four_quadrant_refuted",
    "C83_four_quadrant_3d_refuted",
    "C83_implosion_refuted",
    "C83_kelvin_helmholtz_refuted",
    "C83_gresho_refuted",
    "C83_vortex_pressure_refuted",
    "C83_vortex_centre_refuted",
    "C83_jet_gamma_refuted",
    "C83_shu_osher_shock",
    "C83_wedge_shock"
   ],
   "note": "C83_state covers the settings of sgood; the defects are stated as refutations."
  },
  {
   "property": "C84",
   "status": "proved",
   "theorems": [
    "C84_wedge",
    "C84_jet",
    "C84_jet_mpi_refuted",
    "C84_wedge_front_refuted"
   ],
   "note": "Wedge 2D and jet 2D/3D borders for every ghost point; the MPI build (no jet enters, no front) and the 3D wedge are refuted."
  },
  {
   "property": "C85",
   "status": "proved",
   "theorems": [
    "C85_global_array",
    "C85_parts",
    "C85_hydro_2d",
    "C85_other_problems_refuted",
    "C85_layout_left_refuted",
    "C85_seams_refuted",
    "C85_completes"
   ],
   "note": "Every memory order of the writes; class-level statement for all problems, and through the library's call for 2D hydrodynamics. Refuted parts are findings: 3D and MHD saves are undefined, Fortran-order arrays are permuted, seams hold the previous step. Not modelled: attributes, file names, names of the dimensions."
  },
  {
   "property": "C86",
   "status": "proved",
   "theorems": [
    "C86_state",
    "C86_completes",
    "C86_decomposition_refuted",
    "C86_kelvin_helmholtz_refuted",
    "C86_quadrature",
    "C86_vortex",
    "C86_vortex_energy_refuted",
    "C86_vortex_3d_refuted",
    "C86_points_refuted"
   ],
   "note": "Every problem in exact arithmetic. Defects: C86_decomposition_refuted, C86_vortex_energy_refuted, C86_vortex_3d_refuted, C86_points_refuted, C86_kelvin_helmholtz_refuted."
  },
  {
   "property": "C87",
   "status": "proved",
   "theorems": [
    "C87_subcell",
    "C87_tiling",
    "C87_scheme_points",
    "C87_binary",
    "C87_pieces",
    "C87_debug_name_refuted"
   ],
   "note": "Node rounding to float, text rendering and machine integers are not modelled. Finding: debug saves of distributed runs overwrite the pieces of the normal save."
  },
  {
   "property": "C88",
   "status": "proved",
   "theorems": [
    "C88_value",
    "C88_zero",
    "C88_distance",
    "C88_l2_refuted"
   ],
   "note": "Over exact arithmetic; in floating point the sum depends on the order. Finding: NORM_L2 is the squared norm."
  },
  {
   "property": "C89",
   "status": "proved",
   "theorems": [
    "C89_datasets",
    "C89_datasets_mpi",
    "C89_series",
    "C89_names",
    "C89_paths",
    "C89_directory_refuted",
    "C89_single_step_refuted",
    "C89_time_refuted"
   ],
   "note": "references resolve only when the output directory is the working directory (C89_directory_refuted); entry time is the output number (C89_time_refuted); single-step index lists one output too many (C89_single_step_refuted)"
  },
  {
   "property": "C90",
   "status": "proved",
   "theorems": [
    "C90_borders",
    "C90_front"
   ],
   "note": "2D, one process; in 3D the solver uses the ordinary borders (C09)"
  },
  {
   "property": "C91",
   "status": "proved",
   "theorems": [
    "C91_names",
    "C91_consistent",
    "C91_unknown",
    "C91_offered",
    "C91_accepted_refuted"
   ],
   "note": "C91_accepted_refuted records that the parameters accept names the factory rejects; both checks are proved to agree on every run that starts."
  },
  {
   "property": "C92",
   "status": "proved",
   "theorems": [
    "C92_exact",
    "C92_parts",
    "C92_perf_refuted",
    "C92_perf",
    "C92_io_refuted",
    "C92_mhd_refuted"
   ],
   "note": "Clock readings are exact reals that do not decrease. C92_io_refuted, C92_mhd_refuted and C92_perf_refuted record the findings."
  },
  {
   "property": "C93",
   "status": "proved",
   "theorems": [
    "C93_starts",
    "C93_places",
    "C93_message_3d",
    "C93_message_2d_refuted",
    "C93_coords"
   ],
   "note": "MPI_Cart_create and MPI_Comm_rank by the MPI standard, errors fatal. C93_message_2d_refuted records the finding."
  }
 ]
}