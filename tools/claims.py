c('C01','proved',['C01_run_terminates'],'All RK options, residuals and limiters; real arithmetic; explicit bound on the number of steps. In doubles: C76.')
c('C02','partial',['C02_time_steps_partial'],'Everything but "never passes a pending output time in the last step": a last step may jump over pending output times (see C03).')
c('C03','partial',['C03_snapshots_partial','C03_all_snapshots_partial'],'False unconditionally: when a CFL step exceeds the time left, the code goes straight to the final time. Full statement proved when no CFL step exceeds the output spacing.')
c('C04','proved',['C04_file_names_distinct','C04_name_injective'],'Any arithmetic, complete and failing runs.')
c('C05','proved',['C05_cfl_bound','C05_small_step_aborts','C05_abort_ends_run'],'')
c('C06','proved',['C06_bad_average_stops','C06_run_stops'],'IEEE binary64 (spec_float). Also infinite entries and zero density with any momentum.')
c('C11','proved',['C11_unknown_rk','C11_unknown_riemann','C11_unknown_limiter','C11_unknown_system','C11_system_and_solver'],'')
c('C12','proved',['C12_residual_conservative','C12_residual_characterised','C12_residual_failure'],'Every order, system, Riemann solver, enhancement and boundary condition (real arithmetic); the cell-by-cell characterisation of the residual holds in any arithmetic.')
c('C17','proved',['C17_residual_local'],'Any arithmetic, so bit for bit.')
c('C18','proved',['C18_residual_shift','C18_step_shift','C18_run_shift','C18_run_shift_advection','C18_run_shift_float'],'Residual and RK step in any arithmetic; whole runs (CFL estimate included) in real arithmetic, in binary64 bit for bit, and for linear advection in any arithmetic.')
c('C19','proved',['C19_apply_bc','C19_apply_bc_idempotent','C19_ghosts_after_step'],'Any arithmetic.')
c('C01','proved',['C01_run_terminates','C01_only_time_step_fails','C01_advection_completes'],'All RK options, residuals and limiters; real arithmetic; explicit bound on the number of steps. In doubles: C76. Unlimited runs with a solver other than Godunov fail only at the time-step check; advection runs complete.')
c('C03','partial',['C03_snapshots_partial','C03_all_snapshots_partial','C03_refuted'],'False unconditionally (C03_refuted): when a CFL step exceeds the time left, the code goes straight to the final time. Full statement proved when no CFL step exceeds the output spacing.')
c('C02','partial',['C02_time_steps_partial','C03_refuted'],'Everything but "never passes a pending output time in the last step": a last step may jump over pending output times (C03_refuted).')
c('C13','partial',['C13_run_conserves','C13_run_conserves_unlimited'],'Runs with any limiter that keeps cell means; that adaptive_hr is one is C36.')
c('C15','proved',['C15_advection_exact'],'Contract of leggauss assumed (satisfiable: contracts_satisfiable).')
c('C16','proved',['C16_energy_balance'],'Contract of leggauss assumed.')
c('C21','proved',['C21_mass_matrix','C21_values'],'')
c('C22','proved',['C22_edge_values','C22_edge_signs','C22_face_values'],'')
c('C23','proved',['C23_volume_quadrature'],'Contract of leggauss assumed.')
c('C24','proved',['C24_projection'],'Contracts of leggauss and legfit assumed.')
c('C25','proved',['C25_shift','C25_product_integral'],'')
c('C26','proved',['C26_consistent','C26_arrays'],'Real arithmetic, gamma > 1.')
c('C27','partial',['C27_rusanov_roe','C27_godunov_partial','C27_godunov_refuted'],'Rusanov and Roe: all states. Godunov: all states except left and right both supersonic towards the interface, where the property is false of the code.')
c('C28','proved',['C28_contacts'],'')
c('C29','proved',['C29_averages','C29_linearisation','C29_upwind_right','C29_upwind_left'],'')
c('C30','proved',['C30_entropy_fix'],'')
c('C31','proved',['C31_max_wave_speed','C31_advection'],'')
c('C32','proved',['C32_rusanov','C32_interfaces'],'')
c('C33','proved',['C33_shock_side','C33_rarefaction_side','C33_weak_rarefaction_side','C33_curves_meet','C33_sonic_state','C33_exact_flux','C33_two_rarefactions'],'A rarefaction with relative strength below 1e-15 satisfies its invariant up to 2e-15 sound speeds only (the code uses the shock mass flux there).')
c('C34','partial',['C34_outcomes_partial','C34_float_refuted'],'True in exact arithmetic. In binary64 near-vacuum data ends in UnboundLocalError (C34_float_refuted, admissible states).')
c('C35','partial',['C35_left_shock_partial','C35_right_shock_partial','C35_refuted'],'The star pressure is a fixed point and gives the exact flux; a shock moving against a supersonic stream gets the flux of the wrong side (C35_refuted).')
c('C13','proved',['C13_run_conserves','C13_run_conserves_unlimited','C13_limited_run'],'Limited and unlimited runs. Contracts of leggauss and inv assumed for the limited ones.')
c('C36','proved',['C36_cell','C36_limit'],'Contracts of leggauss and inv assumed.')
c('C37','proved',['C37_minmod','C37_laws'],'')
c('C38','proved',['C38_cell','C38_limit'],'Contracts of leggauss and inv assumed.')
c('C39','proved',['C39_no_new_extrema','C39_cell'],'Contracts of leggauss and inv assumed.')
c('C40','proved',['C40_flagged_cells_only'],'Any arithmetic.')
c('C41','partial',['C41_limit_partial','C41_limiter_exists','C41_runs_partial','C41_advection_runs_partial','C41_order0_fails','C41_refuted'],'Proved for orders >= 1. False at order 0: the first flagged cell raises UnboundLocalError (C41_order0_fails, C41_refuted).')
c('C42','proved',['C42_euler','C42_advection','C42_jump_value','C42_euler_values'],'Flag pattern in any arithmetic.')
c('C43','proved',['C43_bounds','C43_euler_bounds','C43_large_thresholds','C43_uniform','C43_unflagged_limit'],'')
c('C44','partial',['C44_limit_partial','C44_refuted'],'Proved for every single call of limit() with up-to-date ghost cells (initial condition, end of each step), in any arithmetic. False for whole steps: stages are limited with ghost cells of the previous stage, so boundary cells are treated differently (concrete binary64 run).')
c('C52','proved',['C52_no_thresholds','C52_few_thresholds','C52_exception','C52_sensors_unused','C52_initial_sensors'],'Any arithmetic. Snapshot 0 is written before the exception.')
c('C54','partial',['C54_flags_partial','C54_flags_no_shock','C54_advection_flags','C54_reflection_partial','C54_advection_reflection','C54_refuted','C54_flags_refuted'],'Advection: the flags of whole solutions are always mirrored. Euler: mirrored at every cell whose interfaces have a jump below the shock threshold or an orientation-free compression test, and everywhere when the shock threshold is at least 1/2. The compression test only looks at the slow acoustic wave, so the property is false for shock flags: a flow at rest whose two flagged cells are not flagged in its mirror image (C54_flags_refuted).')
c('C47','proved',['C47_unknown_ic','C47_unknown_ic_float','C47_invalid_ic','C47_invalid_ic_float','C47_scktube_parameters'],'Real arithmetic and binary64. Covers every initial condition that raises on the way or has no cells, not only unknown names.')
c('C51','partial',['C51_gamma_partial','C51_same_kind_partial','C51_run_gas_partial','C51_refuted'],'False: gamma is a module-level variable and constructing a simplew solution sets it to 3 for every existing solution (C51_refuted). Proved when both or neither of the solutions are simplew, and that a run uses the gas of its own deck.')
c('C52','proved',['C52_no_thresholds','C52_few_thresholds','C52_exception','C52_sensors_unused','C52_initial_sensors','C52_deck'],'Any arithmetic. From a deck (main.py) nothing is written; a direct call of integrate writes snapshot 0 before the exception.')
c('C53','proved',['C53_mesh','C53_constructible'],'')
c('C07','proved',['C07_low_storage','C07_low_storage_float','C07_low_storage_any'],'Exact reals and binary64; any arithmetic in which three literal facts hold.')
c('C08','proved',['C08_step','C08_tables','C08_choices'],'Exact arithmetic, runs without limiter.')
c('C09','proved',['C09_linear','C09_taylor','C09_taylor_step','C09_advection_linear','C09_advection_step'],'')
c('C10','proved',['C10_exact','C10_rounded','C10_row_sums'],'All rooted trees: rk3 to rk6 exactly, rk8 within 1e-17, rk10 within 1e-14, rk12 within 1e-13, rk14 within 1e-9 (the balls used for it carry 51 fractional bits because its coefficients reach 1946).')
c("C48", "proved", ["C48_roundtrip", "C48_run", "C48_run_double", "C48_mesh", "C48_single_cell"],
  "Any arithmetic whose numbers survive being written and read; for doubles this is C49, so C48_run_double has no such hypothesis. The mesh points themselves are restored in exact arithmetic (C48_mesh); in doubles they are recomputed from the centroids and may differ in the last place. One cell is a TypeError (C48_single_cell).")
c("C49", "proved", ["C49_identified", "C49_identified_prim", "C49_distinct", "C49_written", "C49_read"],
  "About the model of '%.18e' and float() in FloatText.v, which rounds correctly; C49_written and C49_read say so in real numbers.")
c("C50", "partial", ["C50_roundtrip_partial", "C50_refuted"],
  "Proved when unrecognised names and their values contain none of the headings; without that the statement is false of the code (C50_refuted).")
c("C20", "partial", ["C20_reloaded_bc_ignored", "C20_refuted"],
  "False of the code: apply_bc compares names by identity, and a loaded name is a fresh string, so apply_bc does nothing after loading any snapshot.")
c("C45", "proved", ["C45_face_value", "C45_exact", "C45_constructible", "C45_repeated_refused", "C45_large_refused"],
  "Exact arithmetic, inv's contract. Every duplicate-free list of modes up to the order gives an invertible matrix (a rule of signs for Legendre series).")
c("C46", "proved", ["C46_pointwise", "C46_averages", "C46_first_step"],
  "Exact arithmetic; contracts of leggauss, legfit, inv. Covers limiting and enhancement at start-up, ghost cells included.")
c("C14", "proved", ["C14_residual", "C14_run", "C14_completes"],
  "Real arithmetic, every order, cell count, Riemann solver, RK scheme, step size and enhancement from distinct modes up to the order; periodic or zero-gradient boundaries; with or without the hierarchical limiter (non-negative thresholds). Interior modes never change, and the run reaches the final time when its CFL step is at least 1e-14. Ghost cells keep their averages.")
c("C55", "proved", ["C55_output_rule", "C55_last_step"],
  "Real arithmetic. Complements C03 (false of the code): says exactly which outputs are skipped.")
c("C56", "proved", ["C56_symbol", "C56_wave"],
  "Real arithmetic, complex numbers as pairs; contracts of leggauss and inv. C56_symbol is the statement in one cell, C56_wave on the whole periodic domain. The script filters modes above p and the solver does not, so enhancement modes are assumed distinct and up to the order.")
c("C57", "proved", ["C57_half_plane", "C57_neutral", "C57_constants"], "C57_half_plane holds for |T| >= 1. The property is about the plain scheme; for the enhanced matrix it is false, see C84.")
c("C58", "proved", ["C58_determinant"], "numpy.linalg.det enters as any function that is multilinear and alternating in the rows and 1 on the identity; cofactor expansion is one (C58_witness).")
c("C59", "proved", ["C59_amplification"], "Real arithmetic, no limiter; contracts of leggauss and inv. The two real runs take identical steps because the advection step is constant.")
c("C60", "proved", ["C60_no_new_extrema", "C60_rk6"], "Real arithmetic; contracts of leggauss and inv; no limiter. C60_rk6 is the second sentence, on eight cells.")
c("C61", "proved", ["C61_uniform_velocity_pressure"], "Real arithmetic, no limiter; contracts of leggauss and inv. Positivity of the density is assumed at the states handed to the residual (all Riemann solvers); C62_witness and C64_witness are runs that meet it.")
c("C62", "proved", ["C62_stationary_contact", "C62_completes", "C62_rusanov_smears"], "Real arithmetic, no limiter; contracts of leggauss and inv. Ghost cells filled at the start, as main.py does; completion needs a CFL step of at least 1e-14.")
c("C63", "proved", ["C63_entropy_wave"], "Real arithmetic, no limiter; contracts of leggauss and inv. The advection solver is started on the density of the state before the step.")
c("C64", "proved", ["C64_first_order", "C64_completes"], "Real arithmetic, no limiter; contracts of leggauss and inv. Completion needs a CFL step of at least 1e-14.")
c("C65", "proved", ["C65_first_order", "C65_sinewave", "C65_completes", "C65_refinement"], "Real arithmetic, no limiter; contracts of leggauss and legfit. Completion needs a CFL step of at least 1e-14.")
c("C66", "proved", ["C66_plot_shows_state", "C66_absent", "C66_sensors", "C66_no_sensors", "C66_regression", "C66_pressure_refuted", "C66_reference_curve"], "Numbers that survive the text files (texts_ok). The stronger claim that the pressure drawn is that of the run fails for simplew, whose gamma is 3: C66_pressure_refuted.")
c("C67", "proved", ["C67_compare"], "Real arithmetic; numbers that survive the text files (texts_ok).")
c("C68", "proved", ["C68_study", "C68_orders_scale", "C68_orders_exact"], "Real arithmetic; contracts of leggauss and legfit; delta is the accuracy with which the numbers of snapshots 0 and 10 are read back.")
c("C69", "proved", ["C69_superposition"], "Real arithmetic, no limiter.")
c("C70", "proved", ["C70_range", "C70_distance"], "Real arithmetic, no limiter; contracts of leggauss and inv.")
c("C71", "proved", ["C71_units", "C71_fluxes", "C71_convert", "C71_godunov_refuted"], "Real arithmetic. C71_godunov_refuted is the last sentence: the exact flux depends on the unit of pressure through its absolute tolerance.")
c("C72", "proved", ["C72_meaning", "C72_reflect", "C72_rusanov", "C72_roe", "C72_godunov", "C72_symmetric"], "Real arithmetic, no limiter (limited runs: C86, since the shock sensor is not mirror symmetric, C54_refuted), and the exact flux is not in supersonic collisions (C27_godunov_refuted).")
c("C73", "proved", ["C73_l2_stable", "C73_l2_distance"], "Real arithmetic, no limiter; contract of leggauss. The bound on the CFL number is sufficient, not claimed to be sharp.")
c("C74", "proved", ["C74_error_bound", "C74_sinewave_rate", "C74_completes"], "Real arithmetic, no limiter; contracts of leggauss and legfit. The constant is explicit (rate_const) and not claimed to be sharp; rk3 caps the order at 3.")
c("C75", "proved", ["C75_error_bound", "C75_entropy_rate", "C75_fine_grids", "C75_completes"], "Real arithmetic, no limiter; contracts of leggauss, legfit and inv. The fineness condition (sag_size below the minimum density) is sufficient, not claimed to be sharp.")
c("C76", "proved", ["C76_final_time", "C76_last_step", "C76_terminates", "C76_advection_exact", "C76_advection_completes", "C76_never_completes", "C76_never_stops"], "Binary64 (spec_float of the standard library, shown to round correctly in ProofsFloatAdd.v); libm functions and oracles are arbitrary. C76_never_stops shows that C01, proved in real arithmetic, does not carry over to doubles without a bound on the final time.")
c("C77", "proved", ["C77_passes", "C77_two_outputs", "C77_golds", "C77_stale_files", "C77_keeps_files", "C77_no_snapshot"], "Any arithmetic. C77_golds assumes that the numbers of the two states survive being written and read, which C49 proves of every double. The plot made after a pass is not modelled.")
c("C78", "proved", ["C78_solver_not_started", "C78_study_ends", "C78_nothing_to_plot"], "The property records a defect of the script (finding 23). File trees are lists of paths; links and permissions are not modelled.")
c("C79", "proved", ["C79_simplew", "C79_entrpyw", "C79_acsticw", "C79_acsticw_shape", "C79_scktube", "C79_shuoshe", "C79_sinewave"], "Real arithmetic: the functions of the initial conditions at every position; how they are projected onto cells is C24.")
c("C80", "proved", ["C80_periodic", "C80_ictest_jumps", "C80_simplew_ends", "C80_scktube_ends", "C80_shuoshe_ends"], "Real arithmetic. The two exceptions are theorems (findings 25 and 26).")
c("C81", "proved", ["C81_cells_alike", "C81_averages_stay", "C81_averages_real", "C81_still_tube"], "C81_averages_stay is about binary64 operations as in Coq's SpecFloat, with an arbitrary math library. Sums are taken in the order of the model; the proof does not depend on it, since every summand is a zero or NaN.")
c("C82", "proved", ["C82_drawn", "C82_inside", "C82_methods", "C82_whole_region", "C82_islands", "C82_undamped"], "Tables are the exact decimals of rk_coeffs.py. The islands are found by sign changes computed in ball arithmetic (finding 27).")
c("C83", "proved", ["C83_steps", "C83_teeth", "C83_bounded", "C83_grow", "C83_gains"], "No limiter and no enhancement in C83_teeth, C83_bounded and C83_grow; C83_steps holds with any limiter. The case that the CFL step exceeds the output spacing is C55.")
c("C84", "proved", ["C84_modes_012", "C84_modes_0123", "C84_growth"], "Real arithmetic, no limiter; contracts of leggauss and inv. C84_witness: eight cells with 'icb 0 1 2 3' and CFL number 1; C84_script_case: the modes of dg_stability.py.")
c("C85", "proved", ["C85_phases", "C85_vertices", "C85_total", "C85_symmetric", "C85_symmetric_enhanced", "C85_standard_left", "C85_script_positive"], "Real arithmetic. numpy.linalg.eigvals enters as a function that returns eigenvalues only, or all of them, at the sampled matrices, as each theorem states; argsort as a sorting permutation; arctan2 as any function. Witnesses: order 0 with an exact eigenvalue routine, and a list of the four eigenvalues at T = -1 for the script.")
c("C86", "proved", ["C86_cell", "C86_limit", "C86_no_shock", "C86_runs"], "Real arithmetic. Conditional on orientation-free shock flags; C54_flags_refuted shows that the flags themselves are not mirrored without it. In runs the condition is asked of every state handed to the limiter; the witness is a dense slab at rest with thresholds 0, whose edges are flagged and limited in every stage.")
c("C87", "proved", ["C87_cell", "C87_limit", "C87_layers_at_rest"], "Real arithmetic.")
c("C88", "partial", ["C88_lift", "C88_unlimited", "C88_sign", "C88_level_partial", "C88_limit", "C88_refuted"], "Full for runs without limiter (C88_unlimited, any k and c) and for a change of sign of limited runs of any order (C88_sign). The zero level of limited runs: proved for order 1 (C88_level_partial) and for one call of limit() at any order (C88_limit); false from order 2 on, shown by a binary64 run (C88_refuted), because residual() adds the volume term, but no interface fluxes, to the ghost cells that the limiter reads inside the RK stages.")
c("C89", "proved", ["C89_value", "C89_negate", "C89_runs", "C89_any"], "C89_runs for binary64; C89_any is the same for any arithmetic and any relation kept by sums, differences and products with a common factor. Runs with the limiter are C88_sign (in real numbers; with NaN minmod is not odd).")
c("C90", "proved", ["C90_persist", "C90_unnoticed", "C90_spread", "C90_minmod"], "Euler runs: C06 says when a NaN stops them. Limiter hypotheses: square matrices of the solution's size, which Limiter() builds. C90_hidden and C90_seen evaluate the asymmetry of the limiter.")
c("C91", "proved", ["C91_influence", "C91_periodic", "C91_upstream", "C91_evaluations"], "Exact equality in any arithmetic. With the limiter data do travel upstream (C91_limited, evaluated in binary64).")
c("C92", "proved", ["C92_steps", "C92_run", "C92_advection", "C92_distance", "C92_ring", "C92_global"], "Exact equality in any arithmetic. With limiter: the ghost cells must be filled at the start and the limiter's matrices have the size of the solution, as the constructors make them (C92_limited). Without it the bound is attained (C92_attained: Euler, six cells in two steps of three evaluations, binary64). C92_global evaluates two Euler runs that differ in cell 9 only and end with different values in cell 1 after two steps. C92_enhanced: with enhancement data travel upstream, so C91 does not extend to it.")
c("C93", "proved", ["C93_restart", "C93_leg", "C93_leg_double", "C93_restart_double"], "Holds of failing runs as well. The last snapshot is excluded: asked for one output or fewer a run stops with StopIteration. C93_restart_double has the agreement of the remaining output times as hypothesis; C93_leg_double has none. C93_witness: runs of every order and scheme with three snapshots.")
