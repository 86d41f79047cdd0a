{
 "claims": [
  {
   "property": "C01",
   "status": "proved",
   "theorems": [
    "C01_run_terminates",
    "C01_only_time_step_fails",
    "C01_advection_completes"
   ],
   "note": "All RK options, residuals and limiters; real arithmetic; explicit bound on the number of steps. In doubles: C76. Unlimited runs with a solver other than Godunov fail only at the time-step check; advection runs complete."
  },
  {
   "property": "C02",
   "status": "partial",
   "theorems": [
    "C02_time_steps_partial",
    "C03_refuted"
   ],
   "note": "Everything but \"never passes a pending output time in the last step\": a last step may jump over pending output times (C03_refuted)."
  },
  {
   "property": "C03",
   "status": "partial",
   "theorems": [
    "C03_snapshots_partial",
    "C03_all_snapshots_partial",
    "C03_refuted"
   ],
   "note": "False unconditionally (C03_refuted): when a CFL step exceeds the time left, the code goes straight to the final time. Full statement proved when no CFL step exceeds the output spacing."
  },
  {
   "property": "C04",
   "status": "proved",
   "theorems": [
    "C04_file_names_distinct",
    "C04_name_injective"
   ],
   "note": "Any arithmetic, complete and failing runs."
  },
  {
   "property": "C05",
   "status": "proved",
   "theorems": [
    "C05_cfl_bound",
    "C05_small_step_aborts",
    "C05_abort_ends_run"
   ],
   "note": ""
  },
  {
   "property": "C06",
   "status": "proved",
   "theorems": [
    "C06_bad_average_stops",
    "C06_run_stops"
   ],
   "note": "IEEE binary64 (spec_float). Also infinite entries and zero density with any momentum."
  },
  {
   "property": "C07",
   "status": "proved",
   "theorems": [
    "C07_low_storage",
    "C07_low_storage_float",
    "C07_low_storage_any"
   ],
   "note": "Exact reals and binary64; any arithmetic in which three literal facts hold."
  },
  {
   "property": "C08",
   "status": "proved",
   "theorems": [
    "C08_step",
    "C08_tables",
    "C08_choices"
   ],
   "note": "Exact arithmetic, runs without limiter."
  },
  {
   "property": "C09",
   "status": "proved",
   "theorems": [
    "C09_linear",
    "C09_taylor",
    "C09_taylor_step",
    "C09_advection_linear",
    "C09_advection_step"
   ],
   "note": ""
  },
  {
   "property": "C10",
   "status": "proved",
   "theorems": [
    "C10_exact",
    "C10_rounded",
    "C10_row_sums"
   ],
   "note": "All rooted trees: rk3 to rk6 exactly, rk8 within 1e-17, rk10 within 1e-14, rk12 within 1e-13, rk14 within 1e-9 (the balls used for it carry 51 fractional bits because its coefficients reach 1946)."
  },
  {
   "property": "C11",
   "status": "proved",
   "theorems": [
    "C11_unknown_rk",
    "C11_unknown_riemann",
    "C11_unknown_limiter",
    "C11_unknown_system",
    "C11_system_and_solver"
   ],
   "note": ""
  },
  {
   "property": "C12",
   "status": "proved",
   "theorems": [
    "C12_residual_conservative",
    "C12_residual_characterised",
    "C12_residual_failure"
   ],
   "note": "Every order, system, Riemann solver, enhancement and boundary condition (real arithmetic); the cell-by-cell characterisation of the residual holds in any arithmetic."
  },
  {
   "property": "C13",
   "status": "proved",
   "theorems": [
    "C13_run_conserves",
    "C13_run_conserves_unlimited",
    "C13_limited_run"
   ],
   "note": "Limited and unlimited runs. Contracts of leggauss and inv assumed for the limited ones."
  },
  {
   "property": "C14",
   "status": "proved",
   "theorems": [
    "C14_residual",
    "C14_run",
    "C14_completes"
   ],
   "note": "Real arithmetic, every order, cell count, Riemann solver, RK scheme, step size and enhancement from distinct modes up to the order; periodic or zero-gradient boundaries; with or without the hierarchical limiter (non-negative thresholds). Interior modes never change, and the run reaches the final time when its CFL step is at least 1e-14. Ghost cells keep their averages."
  },
  {
   "property": "C15",
   "status": "proved",
   "theorems": [
    "C15_advection_exact"
   ],
   "note": "Contract of leggauss assumed (satisfiable: contracts_satisfiable)."
  },
  {
   "property": "C16",
   "status": "proved",
   "theorems": [
    "C16_energy_balance"
   ],
   "note": "Contract of leggauss assumed."
  },
  {
   "property": "C17",
   "status": "proved",
   "theorems": [
    "C17_residual_local"
   ],
   "note": "Any arithmetic, so bit for bit."
  },
  {
   "property": "C18",
   "status": "proved",
   "theorems": [
    "C18_residual_shift",
    "C18_step_shift",
    "C18_run_shift",
    "C18_run_shift_advection",
    "C18_run_shift_float"
   ],
   "note": "Residual and RK step in any arithmetic; whole runs (CFL estimate included) in real arithmetic, in binary64 bit for bit, and for linear advection in any arithmetic."
  },
  {
   "property": "C19",
   "status": "proved",
   "theorems": [
    "C19_apply_bc",
    "C19_apply_bc_idempotent",
    "C19_ghosts_after_step"
   ],
   "note": "Any arithmetic."
  },
  {
   "property": "C20",
   "status": "partial",
   "theorems": [
    "C20_reloaded_bc_ignored",
    "C20_refuted"
   ],
   "note": "False of the code: apply_bc compares names by identity, and a loaded name is a fresh string, so apply_bc does nothing after loading any snapshot."
  },
  {
   "property": "C21",
   "status": "proved",
   "theorems": [
    "C21_mass_matrix",
    "C21_values"
   ],
   "note": ""
  },
  {
   "property": "C22",
   "status": "proved",
   "theorems": [
    "C22_edge_values",
    "C22_edge_signs",
    "C22_face_values"
   ],
   "note": ""
  },
  {
   "property": "C23",
   "status": "proved",
   "theorems": [
    "C23_volume_quadrature"
   ],
   "note": "Contract of leggauss assumed."
  },
  {
   "property": "C24",
   "status": "proved",
   "theorems": [
    "C24_projection"
   ],
   "note": "Contracts of leggauss and legfit assumed."
  },
  {
   "property": "C25",
   "status": "proved",
   "theorems": [
    "C25_shift",
    "C25_product_integral"
   ],
   "note": ""
  },
  {
   "property": "C26",
   "status": "proved",
   "theorems": [
    "C26_consistent",
    "C26_arrays"
   ],
   "note": "Real arithmetic, gamma > 1."
  },
  {
   "property": "C27",
   "status": "partial",
   "theorems": [
    "C27_rusanov_roe",
    "C27_godunov_partial",
    "C27_godunov_refuted"
   ],
   "note": "Rusanov and Roe: all states. Godunov: all states except left and right both supersonic towards the interface, where the property is false of the code."
  },
  {
   "property": "C28",
   "status": "proved",
   "theorems": [
    "C28_contacts"
   ],
   "note": ""
  },
  {
   "property": "C29",
   "status": "proved",
   "theorems": [
    "C29_averages",
    "C29_linearisation",
    "C29_upwind_right",
    "C29_upwind_left"
   ],
   "note": ""
  },
  {
   "property": "C30",
   "status": "proved",
   "theorems": [
    "C30_entropy_fix"
   ],
   "note": ""
  },
  {
   "property": "C31",
   "status": "proved",
   "theorems": [
    "C31_max_wave_speed",
    "C31_advection"
   ],
   "note": ""
  },
  {
   "property": "C32",
   "status": "proved",
   "theorems": [
    "C32_rusanov",
    "C32_interfaces"
   ],
   "note": ""
  },
  {
   "property": "C33",
   "status": "proved",
   "theorems": [
    "C33_shock_side",
    "C33_rarefaction_side",
    "C33_weak_rarefaction_side",
    "C33_curves_meet",
    "C33_sonic_state",
    "C33_exact_flux",
    "C33_two_rarefactions"
   ],
   "note": "A rarefaction with relative strength below 1e-15 satisfies its invariant up to 2e-15 sound speeds only (the code uses the shock mass flux there)."
  },
  {
   "property": "C34",
   "status": "partial",
   "theorems": [
    "C34_outcomes_partial",
    "C34_float_refuted"
   ],
   "note": "True in exact arithmetic. In binary64 near-vacuum data ends in UnboundLocalError (C34_float_refuted, admissible states)."
  },
  {
   "property": "C35",
   "status": "partial",
   "theorems": [
    "C35_left_shock_partial",
    "C35_right_shock_partial",
    "C35_refuted"
   ],
   "note": "The star pressure is a fixed point and gives the exact flux; a shock moving against a supersonic stream gets the flux of the wrong side (C35_refuted)."
  },
  {
   "property": "C36",
   "status": "proved",
   "theorems": [
    "C36_cell",
    "C36_limit"
   ],
   "note": "Contracts of leggauss and inv assumed."
  },
  {
   "property": "C37",
   "status": "proved",
   "theorems": [
    "C37_minmod",
    "C37_laws"
   ],
   "note": ""
  },
  {
   "property": "C38",
   "status": "proved",
   "theorems": [
    "C38_cell",
    "C38_limit"
   ],
   "note": "Contracts of leggauss and inv assumed."
  },
  {
   "property": "C39",
   "status": "proved",
   "theorems": [
    "C39_no_new_extrema",
    "C39_cell"
   ],
   "note": "Contracts of leggauss and inv assumed."
  },
  {
   "property": "C40",
   "status": "proved",
   "theorems": [
    "C40_flagged_cells_only"
   ],
   "note": "Any arithmetic."
  },
  {
   "property": "C41",
   "status": "partial",
   "theorems": [
    "C41_limit_partial",
    "C41_limiter_exists",
    "C41_runs_partial",
    "C41_advection_runs_partial",
    "C41_order0_fails",
    "C41_refuted"
   ],
   "note": "Proved for orders >= 1. False at order 0: the first flagged cell raises UnboundLocalError (C41_order0_fails, C41_refuted)."
  },
  {
   "property": "C42",
   "status": "proved",
   "theorems": [
    "C42_euler",
    "C42_advection",
    "C42_jump_value",
    "C42_euler_values"
   ],
   "note": "Flag pattern in any arithmetic."
  },
  {
   "property": "C43",
   "status": "proved",
   "theorems": [
    "C43_bounds",
    "C43_euler_bounds",
    "C43_large_thresholds",
    "C43_uniform",
    "C43_unflagged_limit"
   ],
   "note": ""
  },
  {
   "property": "C44",
   "status": "partial",
   "theorems": [
    "C44_limit_partial",
    "C44_refuted"
   ],
   "note": "Proved for every single call of limit() with up-to-date ghost cells (initial condition, end of each step), in any arithmetic. False for whole steps: stages are limited with ghost cells of the previous stage, so boundary cells are treated differently (concrete binary64 run)."
  },
  {
   "property": "C45",
   "status": "proved",
   "theorems": [
    "C45_face_value",
    "C45_exact",
    "C45_constructible",
    "C45_repeated_refused",
    "C45_large_refused"
   ],
   "note": "Exact arithmetic, inv's contract. Every duplicate-free list of modes up to the order gives an invertible matrix (a rule of signs for Legendre series)."
  },
  {
   "property": "C46",
   "status": "proved",
   "theorems": [
    "C46_pointwise",
    "C46_averages",
    "C46_first_step"
   ],
   "note": "Exact arithmetic; contracts of leggauss, legfit, inv. Covers limiting and enhancement at start-up, ghost cells included."
  },
  {
   "property": "C47",
   "status": "proved",
   "theorems": [
    "C47_unknown_ic",
    "C47_unknown_ic_float",
    "C47_invalid_ic",
    "C47_invalid_ic_float",
    "C47_scktube_parameters"
   ],
   "note": "Real arithmetic and binary64. Covers every initial condition that raises on the way or has no cells, not only unknown names."
  },
  {
   "property": "C48",
   "status": "proved",
   "theorems": [
    "C48_roundtrip",
    "C48_run",
    "C48_run_double",
    "C48_mesh",
    "C48_single_cell"
   ],
   "note": "Any arithmetic whose numbers survive being written and read; for doubles this is C49, so C48_run_double has no such hypothesis. The mesh points themselves are restored in exact arithmetic (C48_mesh); in doubles they are recomputed from the centroids and may differ in the last place. One cell is a TypeError (C48_single_cell)."
  },
  {
   "property": "C49",
   "status": "proved",
   "theorems": [
    "C49_identified",
    "C49_identified_prim",
    "C49_distinct",
    "C49_written",
    "C49_read"
   ],
   "note": "About the model of '%.18e' and float() in FloatText.v, which rounds correctly; C49_written and C49_read say so in real numbers."
  },
  {
   "property": "C50",
   "status": "partial",
   "theorems": [
    "C50_roundtrip_partial",
    "C50_refuted"
   ],
   "note": "Proved when unrecognised names and their values contain none of the headings; without that the statement is false of the code (C50_refuted)."
  },
  {
   "property": "C51",
   "status": "partial",
   "theorems": [
    "C51_gamma_partial",
    "C51_same_kind_partial",
    "C51_run_gas_partial",
    "C51_refuted"
   ],
   "note": "False: gamma is a module-level variable and constructing a simplew solution sets it to 3 for every existing solution (C51_refuted). Proved when both or neither of the solutions are simplew, and that a run uses the gas of its own deck."
  },
  {
   "property": "C52",
   "status": "proved",
   "theorems": [
    "C52_no_thresholds",
    "C52_few_thresholds",
    "C52_exception",
    "C52_sensors_unused",
    "C52_initial_sensors",
    "C52_deck"
   ],
   "note": "Any arithmetic. From a deck (main.py) nothing is written; a direct call of integrate writes snapshot 0 before the exception."
  },
  {
   "property": "C53",
   "status": "proved",
   "theorems": [
    "C53_mesh",
    "C53_constructible"
   ],
   "note": ""
  },
  {
   "property": "C54",
   "status": "partial",
   "theorems": [
    "C54_flags_partial",
    "C54_flags_no_shock",
    "C54_advection_flags",
    "C54_reflection_partial",
    "C54_advection_reflection",
    "C54_refuted",
    "C54_flags_refuted"
   ],
   "note": "Advection: the flags of whole solutions are always mirrored. Euler: mirrored at every cell whose interfaces have a jump below the shock threshold or an orientation-free compression test, and everywhere when the shock threshold is at least 1/2. The compression test only looks at the slow acoustic wave, so the property is false for shock flags: a flow at rest whose two flagged cells are not flagged in its mirror image (C54_flags_refuted)."
  },
  {
   "property": "C55",
   "status": "proved",
   "theorems": [
    "C55_output_rule",
    "C55_last_step"
   ],
   "note": "Real arithmetic. Complements C03 (false of the code): says exactly which outputs are skipped."
  },
  {
   "property": "C56",
   "status": "proved",
   "theorems": [
    "C56_symbol",
    "C56_wave"
   ],
   "note": "Real arithmetic, complex numbers as pairs; contracts of leggauss and inv. C56_symbol is the statement in one cell, C56_wave on the whole periodic domain. The script filters modes above p and the solver does not, so enhancement modes are assumed distinct and up to the order."
  },
  {
   "property": "C57",
   "status": "proved",
   "theorems": [
    "C57_half_plane",
    "C57_neutral",
    "C57_constants"
   ],
   "note": "C57_half_plane holds for |T| >= 1. The property is about the plain scheme; for the enhanced matrix it is false, see C84."
  },
  {
   "property": "C58",
   "status": "proved",
   "theorems": [
    "C58_determinant"
   ],
   "note": "numpy.linalg.det enters as any function that is multilinear and alternating in the rows and 1 on the identity; cofactor expansion is one (C58_witness)."
  },
  {
   "property": "C59",
   "status": "proved",
   "theorems": [
    "C59_amplification"
   ],
   "note": "Real arithmetic, no limiter; contracts of leggauss and inv. The two real runs take identical steps because the advection step is constant."
  },
  {
   "property": "C60",
   "status": "proved",
   "theorems": [
    "C60_no_new_extrema",
    "C60_rk6"
   ],
   "note": "Real arithmetic; contracts of leggauss and inv; no limiter. C60_rk6 is the second sentence, on eight cells."
  },
  {
   "property": "C61",
   "status": "proved",
   "theorems": [
    "C61_uniform_velocity_pressure"
   ],
   "note": "Real arithmetic, no limiter; contracts of leggauss and inv. Positivity of the density is assumed at the states handed to the residual (all Riemann solvers); C62_witness and C64_witness are runs that meet it."
  },
  {
   "property": "C62",
   "status": "proved",
   "theorems": [
    "C62_stationary_contact",
    "C62_completes",
    "C62_rusanov_smears"
   ],
   "note": "Real arithmetic, no limiter; contracts of leggauss and inv. Ghost cells filled at the start, as main.py does; completion needs a CFL step of at least 1e-14."
  },
  {
   "property": "C63",
   "status": "proved",
   "theorems": [
    "C63_entropy_wave"
   ],
   "note": "Real arithmetic, no limiter; contracts of leggauss and inv. The advection solver is started on the density of the state before the step."
  },
  {
   "property": "C64",
   "status": "proved",
   "theorems": [
    "C64_first_order",
    "C64_completes"
   ],
   "note": "Real arithmetic, no limiter; contracts of leggauss and inv. Completion needs a CFL step of at least 1e-14."
  },
  {
   "property": "C65",
   "status": "proved",
   "theorems": [
    "C65_first_order",
    "C65_sinewave",
    "C65_completes",
    "C65_refinement"
   ],
   "note": "Real arithmetic, no limiter; contracts of leggauss and legfit. Completion needs a CFL step of at least 1e-14."
  },
  {
   "property": "C66",
   "status": "proved",
   "theorems": [
    "C66_plot_shows_state",
    "C66_absent",
    "C66_sensors",
    "C66_no_sensors",
    "C66_regression",
    "C66_pressure_refuted",
    "C66_reference_curve"
   ],
   "note": "Numbers that survive the text files (texts_ok). The stronger claim that the pressure drawn is that of the run fails for simplew, whose gamma is 3: C66_pressure_refuted."
  },
  {
   "property": "C67",
   "status": "proved",
   "theorems": [
    "C67_compare"
   ],
   "note": "Real arithmetic; numbers that survive the text files (texts_ok)."
  },
  {
   "property": "C68",
   "status": "proved",
   "theorems": [
    "C68_study",
    "C68_orders_scale",
    "C68_orders_exact"
   ],
   "note": "Real arithmetic; contracts of leggauss and legfit; delta is the accuracy with which the numbers of snapshots 0 and 10 are read back."
  },
  {
   "property": "C69",
   "status": "proved",
   "theorems": [
    "C69_superposition"
   ],
   "note": "Real arithmetic, no limiter."
  },
  {
   "property": "C70",
   "status": "proved",
   "theorems": [
    "C70_range",
    "C70_distance"
   ],
   "note": "Real arithmetic, no limiter; contracts of leggauss and inv."
  },
  {
   "property": "C71",
   "status": "proved",
   "theorems": [
    "C71_units",
    "C71_fluxes",
    "C71_convert",
    "C71_godunov_refuted"
   ],
   "note": "Real arithmetic. C71_godunov_refuted is the last sentence: the exact flux depends on the unit of pressure through its absolute tolerance."
  },
  {
   "property": "C72",
   "status": "proved",
   "theorems": [
    "C72_meaning",
    "C72_reflect",
    "C72_rusanov",
    "C72_roe",
    "C72_godunov",
    "C72_symmetric"
   ],
   "note": "Real arithmetic, no limiter (limited runs: C86, since the shock sensor is not mirror symmetric, C54_refuted), and the exact flux is not in supersonic collisions (C27_godunov_refuted)."
  },
  {
   "property": "C73",
   "status": "proved",
   "theorems": [
    "C73_l2_stable",
    "C73_l2_distance"
   ],
   "note": "Real arithmetic, no limiter; contract of leggauss. The bound on the CFL number is sufficient, not claimed to be sharp."
  },
  {
   "property": "C74",
   "status": "proved",
   "theorems": [
    "C74_error_bound",
    "C74_sinewave_rate",
    "C74_completes"
   ],
   "note": "Real arithmetic, no limiter; contracts of leggauss and legfit. The constant is explicit (rate_const) and not claimed to be sharp; rk3 caps the order at 3."
  },
  {
   "property": "C75",
   "status": "proved",
   "theorems": [
    "C75_error_bound",
    "C75_entropy_rate",
    "C75_fine_grids",
    "C75_completes"
   ],
   "note": "Real arithmetic, no limiter; contracts of leggauss, legfit and inv. The fineness condition (sag_size below the minimum density) is sufficient, not claimed to be sharp."
  },
  {
   "property": "C76",
   "status": "proved",
   "theorems": [
    "C76_final_time",
    "C76_last_step",
    "C76_terminates",
    "C76_advection_exact",
    "C76_advection_completes",
    "C76_never_completes",
    "C76_never_stops"
   ],
   "note": "Binary64 (spec_float of the standard library, shown to round correctly in ProofsFloatAdd.v); libm functions and oracles are arbitrary. C76_never_stops shows that C01, proved in real arithmetic, does not carry over to doubles without a bound on the final time."
  },
  {
   "property": "C77",
   "status": "proved",
   "theorems": [
    "C77_passes",
    "C77_two_outputs",
    "C77_golds",
    "C77_stale_files",
    "C77_keeps_files",
    "C77_no_snapshot"
   ],
   "note": "Any arithmetic. C77_golds assumes that the numbers of the two states survive being written and read, which C49 proves of every double. The plot made after a pass is not modelled."
  },
  {
   "property": "C78",
   "status": "proved",
   "theorems": [
    "C78_solver_not_started",
    "C78_study_ends",
    "C78_nothing_to_plot"
   ],
   "note": "The property records a defect of the script (finding 23). File trees are lists of paths; links and permissions are not modelled."
  },
  {
   "property": "C79",
   "status": "proved",
   "theorems": [
    "C79_simplew",
    "C79_entrpyw",
    "C79_acsticw",
    "C79_acsticw_shape",
    "C79_scktube",
    "C79_shuoshe",
    "C79_sinewave"
   ],
   "note": "Real arithmetic: the functions of the initial conditions at every position; how they are projected onto cells is C24."
  },
  {
   "property": "C80",
   "status": "proved",
   "theorems": [
    "C80_periodic",
    "C80_ictest_jumps",
    "C80_simplew_ends",
    "C80_scktube_ends",
    "C80_shuoshe_ends"
   ],
   "note": "Real arithmetic. The two exceptions are theorems (findings 25 and 26)."
  },
  {
   "property": "C81",
   "status": "proved",
   "theorems": [
    "C81_cells_alike",
    "C81_averages_stay",
    "C81_averages_real",
    "C81_still_tube"
   ],
   "note": "C81_averages_stay is about binary64 operations as in Coq's SpecFloat, with an arbitrary math library. Sums are taken in the order of the model; the proof does not depend on it, since every summand is a zero or NaN."
  },
  {
   "property": "C82",
   "status": "proved",
   "theorems": [
    "C82_drawn",
    "C82_inside",
    "C82_methods",
    "C82_whole_region",
    "C82_islands",
    "C82_undamped"
   ],
   "note": "Tables are the exact decimals of rk_coeffs.py. The islands are found by sign changes computed in ball arithmetic (finding 27)."
  },
  {
   "property": "C83",
   "status": "proved",
   "theorems": [
    "C83_steps",
    "C83_teeth",
    "C83_bounded",
    "C83_grow",
    "C83_gains"
   ],
   "note": "No limiter and no enhancement in C83_teeth, C83_bounded and C83_grow; C83_steps holds with any limiter. The case that the CFL step exceeds the output spacing is C55."
  },
  {
   "property": "C84",
   "status": "proved",
   "theorems": [
    "C84_modes_012",
    "C84_modes_0123",
    "C84_growth"
   ],
   "note": "Real arithmetic, no limiter; contracts of leggauss and inv. C84_witness: eight cells with 'icb 0 1 2 3' and CFL number 1; C84_script_case: the modes of dg_stability.py."
  },
  {
   "property": "C85",
   "status": "proved",
   "theorems": [
    "C85_phases",
    "C85_vertices",
    "C85_total",
    "C85_symmetric",
    "C85_symmetric_enhanced",
    "C85_standard_left",
    "C85_script_positive"
   ],
   "note": "Real arithmetic. numpy.linalg.eigvals enters as a function that returns eigenvalues only, or all of them, at the sampled matrices, as each theorem states; argsort as a sorting permutation; arctan2 as any function. Witnesses: order 0 with an exact eigenvalue routine, and a list of the four eigenvalues at T = -1 for the script."
  },
  {
   "property": "C86",
   "status": "proved",
   "theorems": [
    "C86_cell",
    "C86_limit",
    "C86_no_shock",
    "C86_runs"
   ],
   "note": "Real arithmetic. Conditional on orientation-free shock flags; C54_flags_refuted shows that the flags themselves are not mirrored without it. In runs the condition is asked of every state handed to the limiter; the witness is a dense slab at rest with thresholds 0, whose edges are flagged and limited in every stage."
  },
  {
   "property": "C87",
   "status": "proved",
   "theorems": [
    "C87_cell",
    "C87_limit",
    "C87_layers_at_rest"
   ],
   "note": "Real arithmetic."
  },
  {
   "property": "C88",
   "status": "partial",
   "theorems": [
    "C88_lift",
    "C88_unlimited",
    "C88_sign",
    "C88_level_partial",
    "C88_limit",
    "C88_refuted"
   ],
   "note": "Full for runs without limiter (C88_unlimited, any k and c) and for a change of sign of limited runs of any order (C88_sign). The zero level of limited runs: proved for order 1 (C88_level_partial) and for one call of limit() at any order (C88_limit); false from order 2 on, shown by a binary64 run (C88_refuted), because residual() adds the volume term, but no interface fluxes, to the ghost cells that the limiter reads inside the RK stages."
  },
  {
   "property": "C89",
   "status": "proved",
   "theorems": [
    "C89_value",
    "C89_negate",
    "C89_runs",
    "C89_any"
   ],
   "note": "C89_runs for binary64; C89_any is the same for any arithmetic and any relation kept by sums, differences and products with a common factor. Runs with the limiter are C88_sign (in real numbers; with NaN minmod is not odd)."
  },
  {
   "property": "C90",
   "status": "proved",
   "theorems": [
    "C90_persist",
    "C90_unnoticed",
    "C90_spread",
    "C90_minmod"
   ],
   "note": "Euler runs: C06 says when a NaN stops them. Limiter hypotheses: square matrices of the solution's size, which Limiter() builds. C90_hidden and C90_seen evaluate the asymmetry of the limiter."
  },
  {
   "property": "C91",
   "status": "proved",
   "theorems": [
    "C91_influence",
    "C91_periodic",
    "C91_upstream",
    "C91_evaluations"
   ],
   "note": "Exact equality in any arithmetic. With the limiter data do travel upstream (C91_limited, evaluated in binary64)."
  },
  {
   "property": "C92",
   "status": "proved",
   "theorems": [
    "C92_steps",
    "C92_run",
    "C92_advection",
    "C92_distance",
    "C92_ring",
    "C92_global"
   ],
   "note": "Exact equality in any arithmetic. With limiter: the ghost cells must be filled at the start and the limiter's matrices have the size of the solution, as the constructors make them (C92_limited). Without it the bound is attained (C92_attained: Euler, six cells in two steps of three evaluations, binary64). C92_global evaluates two Euler runs that differ in cell 9 only and end with different values in cell 1 after two steps. C92_enhanced: with enhancement data travel upstream, so C91 does not extend to it."
  },
  {
   "property": "C93",
   "status": "proved",
   "theorems": [
    "C93_restart",
    "C93_leg",
    "C93_leg_double",
    "C93_restart_double"
   ],
   "note": "Holds of failing runs as well. The last snapshot is excluded: asked for one output or fewer a run stops with StopIteration. C93_restart_double has the agreement of the remaining output times as hypothesis; C93_leg_double has none. C93_witness: runs of every order and scheme with three snapshots."
  }
 ]
}