# What Print Assumptions lists

Generated by tools/assumptions.py. Theorems with the same list are grouped.

## Nothing (closed under the global context)

* PropertiesBits: C81_cells_alike, C81_averages_stay, C81_still_tube, C18_run_shift_advection, C18_run_shift_float
* PropertiesDG: C12_residual_characterised, C12_residual_failure, C17_residual_local, C18_residual_shift, C18_step_shift, C19_apply_bc, C19_apply_bc_idempotent, C19_ghosts_after_step
* PropertiesIO: C48_roundtrip, C48_run, C48_single_cell, C20_reloaded_bc_ignored, C50_roundtrip_partial, C50_refuted
* PropertiesInfluence: C91_influence, C91_periodic, C91_upstream, C91_evaluations, C91_witness, C91_limited
* PropertiesLaunch: C77_passes, C77_two_outputs, C77_golds, C77_stale_files, C77_keeps_files, C77_no_snapshot, C77_verdicts, C77_two_outputs_used, C77_return_code_ignored, C77_stale_used, C51_run_gas_partial, C51_run_gas_used, C78_solver_not_started, C78_study_ends, C78_nothing_to_plot, C78_checkout
* PropertiesLimit: C40_flagged_cells_only, C41_refuted, C42_euler, C42_advection, C44_limit_partial, C44_limit_witness, C44_refuted, C52_no_thresholds, C52_few_thresholds, C52_exception, C52_sensors_unused, C52_initial_sensors
* PropertiesMain: C47_unknown_ic_float, C47_invalid_ic_float, C47_scktube_parameters, C52_deck, C51_gamma_partial, C51_same_kind_partial
* PropertiesNan: C90_persist, C90_unnoticed, C90_spread, C90_minmod, C90_hidden, C90_seen, C90_witness
* PropertiesRK: C07_low_storage_float, C07_low_storage_any, C08_choices
* PropertiesRKPlot: C82_methods
* PropertiesReach: C92_steps, C92_run, C92_advection, C92_distance, C92_ring, C92_attained, C92_global, C92_enhanced, C92_limited
* PropertiesRestart: C93_leg_double, C93_restart_double
* PropertiesRiemann: C34_float_refuted
* PropertiesScripts: C66_absent, C66_sensors, C66_no_sensors, C66_regression
* PropertiesSign: C89_negate, C89_runs, C89_any, C89_witness
* PropertiesTime: C04_file_names_distinct, C05_abort_ends_run, C06_bad_average_stops, C06_run_stops, C11_unknown_rk, C11_unknown_riemann, C11_unknown_limiter, C11_unknown_system, C11_system_and_solver, C04_name_injective

## `ClassicalDedekindReals.sig_forall_dec`, `FunctionalExtensionality.functional_extensionality_dep`

* PropertiesBasis: C22_edge_signs
* PropertiesClock: C76_final_time, C76_last_step, C76_terminates, C76_advection_exact, C76_advection_completes, C76_never_completes, C76_never_stops
* PropertiesIO: C20_refuted, C49_identified, C49_written, C49_read
* PropertiesLevel: C88_refuted
* PropertiesLimit: C37_laws, C38_witness
* PropertiesRKPlot: C82_inside
* PropertiesSign: C89_value

## `ClassicalDedekindReals.sig_forall_dec`, `ClassicalDedekindReals.sig_not_dec`, `FunctionalExtensionality.functional_extensionality_dep`

* PropertiesAnalysis: C58_determinant
* PropertiesBasis: C21_values, C22_edge_values, C22_face_values, C25_shift
* PropertiesBits: C81_averages_real
* PropertiesCfl: C83_gains
* PropertiesEnh: C45_large_refused
* PropertiesIO: C48_mesh
* PropertiesLevel: C88_lift
* PropertiesLimit: C37_minmod, C42_jump_value, C42_euler_values, C43_bounds, C43_euler_bounds, C43_large_thresholds, C43_uniform, C54_reflection_partial, C54_advection_reflection, C54_refuted
* PropertiesMirror: C72_meaning, C72_reflect, C54_flags_partial, C54_flags_no_shock, C54_advection_flags
* PropertiesMirrorLim: C86_no_shock
* PropertiesRK: C08_tables, C09_linear, C09_taylor, C09_taylor_step, C10_exact, C10_row_sums, C10_sharp
* PropertiesRKPlot: C82_drawn, C82_whole_region, C82_islands, C82_undamped
* PropertiesRiemann: C27_rusanov_roe, C29_linearisation, C30_entropy_fix, C31_max_wave_speed, C29_averages, C29_upwind_right, C29_upwind_left, C31_advection, C32_rusanov, C32_interfaces
* PropertiesScripts: C67_compare
* PropertiesTime: C05_cfl_bound, C05_small_step_aborts
* PropertiesUnits: C71_convert
* PropertiesWave: C75_fine_grids

## `ClassicalDedekindReals.sig_forall_dec`, `ClassicalDedekindReals.sig_not_dec`, `Classical_Prop.classic`, `FunctionalExtensionality.functional_extensionality_dep`

* PropertiesAnalysis: C56_symbol, C56_wave, C57_half_plane, C57_neutral, C57_constants, C59_amplification
* PropertiesBasis: C21_mass_matrix, C23_volume_quadrature, C24_projection, C25_product_integral, C15_advection_exact, C16_energy_balance, C13_run_conserves, C13_run_conserves_unlimited
* PropertiesCfl: C83_steps, C83_teeth, C83_bounded, C83_grow
* PropertiesContact: C61_uniform_velocity_pressure, C62_stationary_contact, C62_completes, C62_rusanov_smears, C63_entropy_wave, C64_first_order, C64_completes
* PropertiesConverge: C65_first_order, C65_sinewave, C65_completes, C65_refinement
* PropertiesDG: C12_residual_conservative, C18_run_shift, constructed_solutions_are_made
* PropertiesEig: C85_phases, C85_vertices, C85_total, C85_symmetric, C85_symmetric_enhanced, C85_standard_left, C85_script_positive
* PropertiesEnh: C45_face_value, C45_exact, C45_constructible, C45_repeated_refused
* PropertiesGrow: C84_modes_012, C84_modes_0123, C84_growth
* PropertiesIC: C46_pointwise, C46_averages, C46_first_step
* PropertiesICPhysics: C79_simplew, C79_entrpyw, C79_acsticw, C79_acsticw_shape, C79_scktube, C79_shuoshe, C79_sinewave, C80_periodic, C80_ictest_jumps, C80_simplew_ends, C80_scktube_ends, C80_shuoshe_ends
* PropertiesL2: C73_l2_stable, C73_l2_distance
* PropertiesLevel: C88_unlimited, C88_sign, C88_level_partial, C88_limit
* PropertiesLimit: C36_cell, C36_limit, C13_limited_run, C38_cell, C38_limit, C39_no_new_extrema, C39_cell, C41_limit_partial, C41_limiter_exists, C41_runs_partial, C41_advection_runs_partial, C41_order0_fails, C43_unflagged_limit
* PropertiesMain: C47_unknown_ic, C47_invalid_ic, C53_mesh, C53_constructible, C51_refuted
* PropertiesMirror: C72_rusanov, C72_roe, C72_godunov, C72_symmetric
* PropertiesMirrorLim: C86_cell, C86_limit, C86_runs, C87_cell, C87_limit, C87_layers_at_rest
* PropertiesMonotone: C60_no_new_extrema, C60_rk6
* PropertiesOrder: C74_error_bound, C74_sinewave_rate, C74_completes
* PropertiesOutput: C55_output_rule, C55_last_step
* PropertiesRK: C07_low_storage, C08_step, C09_advection_linear, C09_advection_step
* PropertiesRestart: C93_restart, C93_leg
* PropertiesRiemann: C26_arrays, C27_godunov_partial, C28_contacts, C33_exact_flux, C33_two_rarefactions, C34_outcomes_partial, C35_refuted, C26_consistent, C27_godunov_refuted, C33_shock_side, C33_rarefaction_side, C33_weak_rarefaction_side, C33_curves_meet, C33_sonic_state, C35_left_shock_partial, C35_right_shock_partial
* PropertiesRun: C01_only_time_step_fails, C01_advection_completes
* PropertiesScripts: C66_plot_shows_state, C66_pressure_refuted, C66_reference_curve, C68_study, C68_orders_scale, C68_orders_exact
* PropertiesSuper: C69_superposition, C70_range, C70_distance
* PropertiesTime: C01_run_terminates, C02_time_steps_partial, C03_snapshots_partial, C03_all_snapshots_partial
* PropertiesUniform: C14_residual, C14_run, C14_completes
* PropertiesUnits: C71_units, C71_fluxes, C71_godunov_refuted
* PropertiesWave: C75_error_bound, C75_entropy_rate, C75_completes

## `ClassicalDedekindReals.sig_forall_dec`, `ClassicalDedekindReals.sig_not_dec`, `ClassicalEpsilon.constructive_indefinite_description`, `Classical_Prop.classic`, `FunctionalExtensionality.functional_extensionality_dep`

* PropertiesBasis: contracts_satisfiable, C12_C16_witness
* PropertiesContact: C62_witness, C62_rusanov_witness, C64_witness
* PropertiesEnh: C45_witness, C45_large_witness
* PropertiesIC: C46_witness
* PropertiesICPhysics: C79_names, C79_sod
* PropertiesLevel: C88_witness
* PropertiesLimit: C41_witness, C36_C43_euler_witness, C52_witness
* PropertiesMirror: C72_rusanov_witness, C72_slab_witness, C54_flags_refuted, C54_advection_witness
* PropertiesOutput: C55_witness
* PropertiesRK: C08_C09_witness
* PropertiesRun: C01_C05_witness, C03_refuted
* PropertiesScripts: C66_plot_used, C66_sensors_used, C67_used, C68_study_used
* PropertiesUniform: C14_witness

## `ClassicalDedekindReals.sig_forall_dec`, `FloatAxioms.Prim2SF_valid`, `FloatAxioms.SF2Prim_Prim2SF`, `FunctionalExtensionality.functional_extensionality_dep`, `PrimFloat.abs`, `PrimFloat.div`, `PrimFloat.eqb`, `PrimFloat.float`, `PrimFloat.frshiftexp`, `PrimFloat.ldshiftexp`, `PrimFloat.ltb`, `PrimFloat.normfr_mantissa`, `PrimFloat.of_uint63`, `PrimFloat.opp`, `PrimInt63.eqb`, `PrimInt63.int`, `PrimInt63.land`, `PrimInt63.lor`, `PrimInt63.lsl`, `PrimInt63.lsr`, `PrimInt63.sub`

* PropertiesIO: C48_run_double, C49_identified_prim, C49_distinct

## `ClassicalDedekindReals.sig_forall_dec`, `ClassicalDedekindReals.sig_not_dec`, `FunctionalExtensionality.functional_extensionality_dep`, `PrimInt63.add`, `PrimInt63.addmuldiv`, `PrimInt63.div`, `PrimInt63.eqb`, `PrimInt63.int`, `PrimInt63.land`, `PrimInt63.leb`, `PrimInt63.lor`, `PrimInt63.lsl`, `PrimInt63.lsr`, `PrimInt63.ltb`, `PrimInt63.mul`, `PrimInt63.mulc`, `PrimInt63.sub`, `Uint63.add_spec`, `Uint63.addmuldiv_def_spec`, `Uint63.div_spec`, `Uint63.eqb_correct`, `Uint63.eqb_refl`, `Uint63.leb_spec`, `Uint63.lor_spec`, `Uint63.lsl_spec`, `Uint63.lsr_spec`, `Uint63.ltb_spec`, `Uint63.mul_spec`, `Uint63.mulc_spec`, `Uint63.of_to_Z`, `Uint63.sub_spec`

* PropertiesRK: C10_rounded
