{
 "claims": [
  {
   "property": "C01",
   "status": "proved",
   "theorems": [
    "C01_preview_position",
    "C01_preview_velocity",
    "C01_preview_acceleration",
    "C01_preview_jerk"
   ],
   "note": "Position, velocity, acceleration and jerk previews equal the integrator run step by step, for all S,T,N,states,inputs."
  },
  {
   "property": "C02",
   "status": "proved",
   "theorems": [
    "C02_preview_cop"
   ],
   "note": "CoP preview equals m/M(p - h/gz p'' - h gx/gz) of the simulated CoM."
  },
  {
   "property": "C03",
   "status": "proved",
   "theorems": [
    "C03_preview_angle",
    "C03_preview_angular_velocity"
   ],
   "note": "Order 2 previews equal constant acceleration motion."
  },
  {
   "property": "C04",
   "status": "proved",
   "theorems": [
    "C04_flow",
    "C04_ode",
    "C04_initial",
    "C04_invertible"
   ],
   "note": "Semigroup law, ODE (derivatives with respect to the duration), and zero duration."
  },
  {
   "property": "C05",
   "status": "proved",
   "theorems": [
    "C05_causality"
   ],
   "note": "All six previews."
  },
  {
   "property": "C06",
   "status": "proved",
   "theorems": [
    "C06_acc_inverse_iff",
    "C06_order2vel_inverse_iff",
    "C06_transposes",
    "C06_acc_inverse_refuted"
   ],
   "note": "Exact iff N=1 or S=T; the unrestricted claim is refuted by a witness (finding: entry (1,0) is -1/S instead of -1/T)."
  },
  {
   "property": "C07",
   "status": "proved",
   "theorems": [
    "C07_position_unique_input",
    "C07_velocity_unique_input",
    "C07_cop_unique_input",
    "C07_cop_singular"
   ],
   "note": "Existence and uniqueness for position/velocity; exact regularity condition for the CoP with a kernel vector otherwise."
  },
  {
   "property": "C08",
   "status": "proved",
   "theorems": [
    "C08_position_inverse",
    "C08_velocity_inverse",
    "C08_angle_inverse",
    "C08_cop_inverse",
    "C08_truncation_refuted"
   ],
   "note": "Truncated inverse characterised; witness where truncation destroys the inverse."
  },
  {
   "property": "C09",
   "status": "proved",
   "theorems": [
    "C09_start",
    "C09_end",
    "C09_zero_duration"
   ],
   "note": "Interpolated state equals the initial state at t=0 and the final one at t=T."
  },
  {
   "property": "C10",
   "status": "proved",
   "theorems": [
    "C10_twice_differentiable",
    "C10_returned"
   ],
   "note": "Velocity and acceleration are the derivatives of the position on the whole interval, including across the two knots."
  },
  {
   "property": "C11",
   "status": "proved",
   "theorems": [
    "C11_unique"
   ],
   "note": "Uniqueness and existence of the three cubics."
  },
  {
   "property": "C12",
   "status": "proved",
   "theorems": [
    "C12_lands_on_target",
    "C12_replanning_defined",
    "C12_starts_from_current"
   ],
   "note": "Any history of re-planning commands; lands exactly on the last target."
  },
  {
   "property": "C13",
   "status": "proved",
   "theorems": [
    "C13_constraints_are_region",
    "C13_leaning_edge_refuted"
   ],
   "note": "Iff for all vertex lists under the sharpness hypothesis; without it a witness refutes the claim (finding: an edge with |dx| < 1e-4 is replaced by a bound)."
  },
  {
   "property": "C14",
   "status": "proved",
   "theorems": [
    "C14_vertices_from_input",
    "C14_starts_lowest",
    "C14_empty",
    "C14_lowest_only_up_to_tolerance"
   ],
   "note": "All lists; the exact-lowest reading is shown to be false, only true up to the tolerance."
  },
  {
   "property": "C15",
   "status": "proved",
   "theorems": [
    "C15_safe_and_terminating",
    "C15_one_point_refuted",
    "C15_assertion_fails_refuted",
    "C15_release_build_refuted",
    "C15_returns"
   ],
   "note": "Safety and termination for two points or more and any scalar type; findings: one point reads index 1, and three points within a millimetre at 14 m make the assertion fail, or the loop run forever without assertions."
  },
  {
   "property": "C16",
   "status": "proved",
   "theorems": [
    "C16_factor_at_least_one",
    "C16_scaled_entries",
    "C16_factor_is_tight",
    "C16_zebulon_factors"
   ],
   "note": "Factor >= 1, entries above epsilon scale to >= 1, and the factor is the smallest that does so (or 1); both factors of a reachable Zebulon generator."
  },
  {
   "property": "C17",
   "status": "proved",
   "theorems": [
    "C17_normalisation_preserves_solutions",
    "C17_zebulon_minimisers"
   ],
   "note": "Same admissible points and same minimisers for every QP and every epsilon >= 0; for Zebulon the minimisers of the scaled problem are exactly the optimal motions."
  },
  {
   "property": "C18",
   "status": "proved",
   "theorems": [
    "C18_reported_with_stream",
    "C18_never_reported_without_stream",
    "C18_returns_iff",
    "C18_silent_failure_refuted"
   ],
   "note": "C18_returns_iff: when the call returns. With a stream the flag is the solver's; without one it is always true: finding, the walk generators never pass a stream so no failure is ever reported (witness)."
  },
  {
   "property": "C19",
   "status": "proved",
   "theorems": [
    "C19_posed_problem",
    "C19_warm_start_transparent",
    "C19_zebulon_warm_start"
   ],
   "note": "C19_posed_problem: which problem one call solves, and what is remembered. Trajectory and Zebulon generators: in every reachable state a hot start is indistinguishable from a fresh solver."
  },
  {
   "property": "C20",
   "status": "proved",
   "theorems": [
    "C20_objective"
   ],
   "note": "Equality up to a constant, for every reachable generator."
  },
  {
   "property": "C21",
   "status": "proved",
   "theorems": [
    "C21_constraints",
    "C21_no_constraints"
   ],
   "note": "Iff, for every reachable generator, with and without the motion constraints."
  },
  {
   "property": "C22",
   "status": "proved",
   "theorems": [
    "C22_optimal_with_limits",
    "C22_optimal_without_limits",
    "C22_independent_of_history",
    "C22_state_advances"
   ],
   "note": "qpOASES is an oracle assumed to return a minimiser of the posed problem if there is one (explicit premise); that one exists as soon as an admissible sequence exists is proved (QPExist.v). Optimality, independence of history (positive jerk weight), state update."
  },
  {
   "property": "C23",
   "status": "proved",
   "theorems": [
    "C23_solve_returns_iff",
    "C23_resize_refuted",
    "C23_calls_return"
   ],
   "note": "Exact condition for solve to return; finding: after setNbSamples with a different size solve always aborts until the references are set again."
  },
  {
   "property": "C24",
   "status": "proved",
   "theorems": [
    "C24_lip_previews_current",
    "C24_lip_recompute_changes_nothing",
    "C24_base_previews_current",
    "C24_nodyn_previews_current"
   ],
   "note": "Whole histories of LIPModel, BaseModel and NoDynamicModel calls: every readable preview is the one of the current parameters, and it previews the step-by-step motion; recomputing changes nothing."
  },
  {
   "property": "C25",
   "status": "proved",
   "theorems": [
    "C25_nodyn_setters_exact",
    "C25_nodyn_readback",
    "C25_nodyn_constructor",
    "C25_lip_available_implies_valid",
    "C25_lip_setters_exact",
    "C25_lip_valid_histories_run",
    "C25_lip_manual_refuted",
    "C25_lip_long_feedback_refuted",
    "C25_lip_zero_feedback_refuted",
    "C25_lip_negative_period_refuted",
    "C25_base_always_valid",
    "C25_base_setters_exact",
    "C25_base_manual_gravity_refuted",
    "C25_base_default_contact_point_refuted"
   ],
   "note": "Exact acceptance sets (LIP, base and no-dynamic models), liveness of valid histories, what a call changes, and refutations for the violated part (manual mode, long feedback period, zero feedback period, negative period, gravity lock-out, uninitialised contact point)."
  },
  {
   "property": "C26",
   "status": "proved",
   "theorems": [
    "C26_feedback_index_in_range",
    "C26_period_not_dividing_refuted"
   ],
   "note": "In range for every configured walk; C26_period_not_dividing_refuted is the violating run."
  },
  {
   "property": "C27",
   "status": "proved",
   "theorems": [
    "C27_timeline_alternates",
    "C27_never_the_same_foot_twice",
    "C27_executed_phase_changes",
    "C27_plan_keeps_walking"
   ],
   "note": "Invariant over all public calls with no timing assumption."
  },
  {
   "property": "C28",
   "status": "proved",
   "theorems": [
    "C28_stop_is_planned",
    "C28_stopping_stays",
    "C28_stop_is_reached"
   ],
   "note": "Safety over all calls, and liveness (deadline) in configured walks."
  },
  {
   "property": "C29",
   "status": "proved",
   "theorems": [
    "C29_one_support_per_sample"
   ],
   "note": "Every row of [V0|V]; the phase of a sample is unique and the column is the number of steps before it."
  },
  {
   "property": "C30",
   "status": "proved",
   "theorems": [
    "C30_timeline_covers_horizon"
   ],
   "note": "Stored phase indices are the phases in progress; coverage and minimality."
  },
  {
   "property": "C31",
   "status": "proved",
   "theorems": [
    "C31_walk_never_fails",
    "C31_empty_timeline_refuted"
   ],
   "note": "Unbounded number of cycles; the refuted theorem is the zero-length double support run."
  },
  {
   "property": "C32",
   "status": "proved",
   "theorems": [
    "C32_size_after_update",
    "C32_walk_size_exact",
    "C32_stop_in_double_support_refuted"
   ],
   "note": "Exact size after every update; exactness along walks never stopped in double support; refuted otherwise by a run."
  },
  {
   "property": "C33",
   "status": "proved",
   "theorems": [
    "C33_steps_kept_and_added",
    "C33_enclosed_respects_constraints",
    "C33_step_added_in_single_support_refuted"
   ],
   "note": "Kept entries, shifting, and membership of added steps in the hull of the kinematic polygon, hence its constraints; refuted run for steps longer than the horizon."
  },
  {
   "property": "C34",
   "status": "proved",
   "theorems": [
    "C34_support_foot_never_moves",
    "C34_other_calls_move_nothing"
   ],
   "note": "All calls."
  },
  {
   "property": "C35",
   "status": "proved",
   "theorems": [
    "C35_sample_weights",
    "C35_single_sample_refuted"
   ],
   "note": "All entries of the matrix, positivity; refuted for N=1."
  },
  {
   "property": "C36",
   "status": "proved",
   "theorems": [
    "C36_feasible_iff",
    "C36_cop_in_phase_polygon",
    "C36_simulated_cop_supported"
   ],
   "note": "Exact feasible set for every reachable generator; the polygon is tied to the phase in progress and, through C39, to the simulated CoP."
  },
  {
   "property": "C37",
   "status": "proved",
   "theorems": [
    "C37_steps_up_to_previous_move",
    "C37_first_step_reachable",
    "C37_reachable_iff",
    "C37_reachable_if_last_only",
    "C37_stale_previous_step_refuted"
   ],
   "note": "Exact consequences of feasibility; C37_stale_previous_step_refuted is the violating run (public calls only)."
  },
  {
   "property": "C38",
   "status": "proved",
   "theorems": [
    "C38_cost_of_the_motion",
    "C38_minimiser_minimises_the_motion_cost",
    "C38_hessian_symmetric_psd"
   ],
   "note": "Cost of the simulated motion for every reachable generator; symmetry and positive semidefiniteness of the assembled Hessian (not of each objective separately)."
  },
  {
   "property": "C39",
   "status": "proved",
   "theorems": [
    "C39_jerks_give_the_cop",
    "C39_no_other_jerks",
    "C39_first_interval",
    "C39_solve_applies_first_jerks",
    "C39_planned_cop_is_reached"
   ],
   "note": "Existence and uniqueness of the jerks; exactness of the stored inverses is an explicit hypothesis (small coefficients are dropped by the code, see C05-C07)."
  },
  {
   "property": "C40",
   "status": "proved",
   "theorems": [
    "C40_run_aborts_refuted",
    "C40_matrices_have_the_problem_sizes",
    "C40_entries_distinct",
    "C40_lookup_in_range",
    "C40_polygons_counted",
    "C40_late_polygon_fails",
    "C40_solver_must_match",
    "C40_fresh_solvers_match",
    "C40_stale_solvers_refuted",
    "C40_standing_never_solved_refuted"
   ],
   "note": "Matrices: sizes, injectivity, range. Solvers: necessary condition, positive result for a table that is rebuilt, and the violations over all histories plus a concrete run."
  },
  {
   "property": "C41",
   "status": "proved",
   "theorems": [
    "C41_objective",
    "C41_first_interval"
   ],
   "note": "The cost is stated on the step by step simulation; hb and cleared record the base height seen by the tilt terms and whether the gravity shift is current (C47)."
  },
  {
   "property": "C42",
   "status": "proved",
   "theorems": [
    "C42_feasible_set",
    "C42_base_limits",
    "C42_no_constraints"
   ],
   "note": "Iff, for every reachable generator and every combination of constraints."
  },
  {
   "property": "C43",
   "status": "proved",
   "theorems": [
    "C43_cop_region",
    "C43_com_region",
    "C43_symmetric_polygons",
    "C43_refuted"
   ],
   "note": "Violated in general: C43_refuted; the enforced region is the reflected polygon, exact for symmetric ones."
  },
  {
   "property": "C44",
   "status": "proved",
   "theorems": [
    "C44_along_heading",
    "C44_parallel"
   ],
   "note": "Iff, with the direction (cos yaw, sin yaw)."
  },
  {
   "property": "C45",
   "status": "proved",
   "theorems": [
    "C45_tilt_equation",
    "C45_documented_iff",
    "C45_refuted"
   ],
   "note": "Violated: C45_refuted; C45_tilt_equation characterises the angles, C45_documented_iff says exactly when they satisfy the documented equation."
  },
  {
   "property": "C46",
   "status": "proved",
   "theorems": [
    "C46_cop_reference",
    "C46_vertical_gravity",
    "C46_refuted"
   ],
   "note": "Violated for tilted gravity: C46_refuted; C46_cop_reference is the exact difference."
  },
  {
   "property": "C47",
   "status": "proved",
   "theorems": [
    "C47_current_parameters",
    "C47_base_height_refuted",
    "C47_gravity_shift_refuted",
    "C47_resize_refuted"
   ],
   "note": "Positive result over all histories plus three violations."
  },
  {
   "property": "C48",
   "status": "proved",
   "theorems": [
    "C48_total_mass",
    "C48_body_mass",
    "C48_base_mass",
    "C48_lower_mass_refuted"
   ],
   "note": "Exact conditions and a violation (C48_lower_mass_refuted)."
  },
  {
   "property": "C49",
   "status": "proved",
   "theorems": [
    "C49_trajectory",
    "C49_trajectory_negative_refuted",
    "C49_zebulon",
    "C49_zebulon_negative_refuted",
    "C49_humanoid",
    "C49_humanoid_negative_refuted",
    "C49_humanoid_first_call"
   ],
   "note": "Exact conditions for the three generators plus violations."
  },
  {
   "property": "C50",
   "status": "proved",
   "theorems": [
    "C50_contact_query_exact",
    "C50_contact_readable_iff",
    "C50_contact_refuted"
   ],
   "note": "Exact behaviour of the query after any history, iff-characterisation, and a concrete out-of-bounds history."
  },
  {
   "property": "C51",
   "status": "proved",
   "theorems": [
    "C51_no_overshoot"
   ],
   "note": "Position stays between the end points and velocity is never negative."
  },
  {
   "property": "C52",
   "status": "proved",
   "theorems": [
    "C52_encloses",
    "C52_hull_exact",
    "C52_constraints_are_hull",
    "C52_repeated_point_refuted",
    "C52_collinear_refuted"
   ],
   "note": "End to end from points to constraints; two refutation witnesses for repeated and collinear points."
  },
  {
   "property": "C53",
   "status": "proved",
   "theorems": [
    "C53_foot_lands",
    "C53_foot_reaches_height",
    "C53_walk_feet_land",
    "C53_one_sample_steps_never_move",
    "C53_foot_does_not_land_refuted"
   ],
   "note": "Function level, walk level, and the two violating parameter ranges."
  },
  {
   "property": "C54",
   "status": "proved",
   "theorems": [
    "C54_double_support_polygon"
   ],
   "note": "Via the hull theorem C52."
  },
  {
   "property": "C56",
   "status": "proved",
   "theorems": [
    "C56_contact_point_refuted",
    "C56_contact_point_set"
   ],
   "note": "The two uninitialised members are parameters of the constructor in the model."
  },
  {
   "property": "C57",
   "status": "proved",
   "theorems": [
    "C57_constructor_returns",
    "C57_call_returns_iff",
    "C57_solve_returns_iff"
   ],
   "note": "Exact conditions for all calls."
  },
  {
   "property": "C58",
   "status": "proved",
   "theorems": [
    "C58_optimal",
    "C58_states_advance",
    "C58_always_reports_success",
    "C58_unique",
    "C58_independent_of_history"
   ],
   "note": "qpOASES is an oracle; existence and uniqueness of the optimum are proved."
  },
  {
   "property": "C59",
   "status": "proved",
   "theorems": [
    "C59_call_effect",
    "C59_initial_state",
    "C59_no_hidden_state"
   ],
   "note": "The visible state is the record zview; hb and cleared are the two hidden facts of C47."
  },
  {
   "property": "C55",
   "status": "proved",
   "theorems": [
    "C55_walk_never_fails",
    "C55_unconstrained_cop",
    "C55_own_solvers",
    "C55_hull_found"
   ],
   "note": "By an invariant over all permitted runs. The solver table is replaced (h_setSolvers) because of the violation of C40; C55_own_solvers shows when the original one suffices."
  },
  {
   "property": "C60",
   "status": "proved",
   "theorems": [
    "C60_one_update",
    "C60_feet_move_smoothly"
   ],
   "note": "C60_one_update for one call, C60_feet_move_smoothly for all walks, by gluing the pieces. Added after a wrong program (acceleration entry overwritten) was caught only by a run."
  },
  {
   "property": "C61",
   "status": "proved",
   "theorems": [
    "C61_call_returns_iff",
    "C61_call_effect",
    "C61_elapsed_time_kept",
    "C61_negative_double_support_refuted"
   ],
   "note": "C61_call_returns_iff and C61_call_effect are stated on the record sview of what a user sees. Added after a wrong program (an assertion of setStepPeriod dropped) was not noticed by the claims about the supervisor's calls. C61_negative_double_support_refuted is the violating run."
  },
  {
   "property": "C62",
   "status": "proved",
   "theorems": [
    "C62_support_foot",
    "C62_kinematic_polygon",
    "C62_planned_steps",
    "C62_query_after_stop_refuted"
   ],
   "note": "C62_kinematic_polygon gives the domain and the value; C62_query_after_stop_refuted holds for every reachable state in double support."
  },
  {
   "property": "C63",
   "status": "proved",
   "theorems": [
    "C63_models_histories",
    "C63_call_returns_iff",
    "C63_call_effect",
    "C63_reference_of_other_length",
    "C63_resize_refuted"
   ],
   "note": "C63_models_histories carries the properties of the feet supervisor and of the pendulum model over to every state of the generator. C63_resize_refuted is the violating run, C63_reference_of_other_length its cause."
  },
  {
   "property": "C64",
   "status": "proved",
   "theorems": [
    "C64_restarts_from_present_cop",
    "C64_otherwise_continues",
    "C64_one_motion",
    "C64_guess_does_not_matter"
   ],
   "note": "The restart theorem was added after a wrong program (the y entries filled with the x centre of pressure) was not noticed. The steps are kept in C64_guess_does_not_matter because the boxes of the steps are taken around the previous plan (see C37)."
  },
  {
   "property": "C65",
   "status": "proved",
   "theorems": [
    "C65_one_motion",
    "C65_constructor",
    "C65_call_returns_iff",
    "C65_call_effect",
    "C65_updates_always_accepted",
    "C65_wrong_size_refuted"
   ],
   "note": "C65_one_motion: existence and uniqueness of the curve used in C65_call_effect. C65_wrong_size_refuted is the violating run."
  },
  {
   "property": "C66",
   "status": "proved",
   "theorems": [
    "C66_same_schedule",
    "C66_same_solve",
    "C66_rounded_walk_never_fails",
    "C66_ieee_rounding",
    "C66_generator_same_schedule",
    "C66_generator_same_solve"
   ],
   "note": "The rounded supervisor is the same model over the scalars of RoundModel.v. Overflow and the special values are not modelled. The settings are given as rounded numbers; the numbers inside the calls (positions, polygons, decisions) may differ arbitrarily between the two runs, only the sizes agree. C66_ieee_rounding shows that round to nearest even with at least 15 bits has the error bound; C66_case_settings has single and double precision. For the generator (C66_generator_same_schedule, C66_generator_same_solve) both runs are assumed to return, because whether the solver and the matrix inverses of the rounded run succeed does not follow from the schedule; C66_generator_case has the two generators in single precision and in exact arithmetic, walking."
  },
  {
   "property": "C67",
   "status": "proved",
   "theorems": [
    "C67_solve_applies_the_best_motion",
    "C67_one_best_motion",
    "C67_exact_solvers_agree",
    "C67_always_about_to_solve",
    "C67_walks_agree"
   ],
   "note": "It joins C17, C36, C38, C39, C55 and C64. The stored inverses must be exact (C08); some motion must respect the constraints, which is a hypothesis. No entry of the plan moves by more than the numerical infinity (see C36). C67_case meets the hypotheses of all the theorems."
  },
  {
   "property": "C68",
   "status": "proved",
   "theorems": [
    "C68_cop_under_the_feet",
    "C68_cop_after_the_last_step",
    "C68_steps_land_within_reach",
    "C68_exact_solvers_respect",
    "C68_cop_off_the_feet_refuted"
   ],
   "note": "Proved with one exception, where the claim is false of the code: C68_cop_off_the_feet_refuted is a walk, with both constraints on and respected, at whose last step the centre of pressure leaves the convex hull of the feet; C68_cop_after_the_last_step says exactly where it is then (and that all is well if the last call does not change the step). The stored inverses must be exact (C08). That the solver respects the constraints is a hypothesis; an exact one does wherever some plan respects them (C68_exact_solvers_respect). C68_case is a walk that meets the hypotheses of the three theorems."
  },
  {
   "property": "C69",
   "status": "proved",
   "theorems": [
    "C69_limits_along_a_run",
    "C69_base_limits_along_a_run",
    "C69_velocity_limit_refuted",
    "C69_long_feedback_refuted",
    "C69_always_admissible_refuted"
   ],
   "note": "The bounds are proved as stated; C69_velocity_limit_refuted, C69_long_feedback_refuted and C69_always_admissible_refuted are the three ways in which the limits, as a user would understand them, are not kept. C69_case and C69_base_case are runs that meet the hypotheses."
  },
  {
   "property": "C70",
   "status": "proved",
   "theorems": [
    "C70_same_problem_anywhere",
    "C70_histories_anywhere",
    "C70_walks_anywhere",
    "C70_put_anywhere",
    "C70_readings",
    "C70_symmetric",
    "C70_same_outcome",
    "C70_planned_steps_forgotten_refuted",
    "C70_first_step_guessed_refuted",
    "C70_sample_without_foot_refuted"
   ],
   "note": "Proved as stated; the three C70_..._refuted are the three exceptions, each with a run. C70_walk_case is a walk that meets the hypotheses."
  },
  {
   "property": "C71",
   "status": "proved",
   "theorems": [
    "C71_initial_state",
    "C71_call_effect",
    "C71_calls_accepted",
    "C71_refused_calls_stop",
    "C71_no_hidden_state",
    "C71_anywhere"
   ],
   "note": "Proved as stated. C71_case sets everything and C71_refused_case meets a refused call."
  },
  {
   "property": "C72",
   "status": "proved",
   "theorems": [
    "C72_admissible_motion",
    "C72_hulls_are_good",
    "C72_best_motion_is_applied",
    "C72_exact_walks_are_safe"
   ],
   "note": "Proved as stated. The condition on the present plan is there because the bounds of a step along the axes are relative to the previous step of the plan that the call starts from, while the oblique sides are relative to the new one (see C37). C72_case is a walk with both constraints that meets the hypotheses of C72_exact_walks_are_safe and of C68; C72_two_steps_case has two steps and a diamond as reach."
  },
  {
   "property": "C73",
   "status": "proved",
   "theorems": [
    "C73_zebulon",
    "C73_one_update",
    "C73_trajectory",
    "C73_humanoid",
    "C73_ten_seconds"
   ],
   "note": "Proved as stated. Every operation is rounded to the same format, without overflow; in the code std::pow is evaluated in double also for float, so a few intermediate products carry more digits than here. That the numbers stay within the magnitudes is a hypothesis on the states and jerks that a user can log. C73_case is a run of two solves in single precision that meets the hypotheses."
  },
  {
   "property": "C74",
   "status": "proved",
   "theorems": [
    "C74_same_problem_anywhere",
    "C74_histories_anywhere",
    "C74_put_anywhere",
    "C74_light_base_refuted"
   ],
   "note": "Proved in exact arithmetic, as equality of the quadratic programs and of the outcomes. C74_light_base_refuted shows the exception for every reached generator with such a base and a positive weight of the centre of pressure, and C74_light_base_refuted_case a concrete one; C74_case is a run that meets the hypotheses."
  },
  {
   "property": "C75",
   "status": "proved",
   "theorems": [
    "C75_same_problem_anywhere",
    "C75_histories_anywhere",
    "C75_read_anywhere",
    "C75_put_anywhere",
    "C75_reversed_histories",
    "C75_reversed_from_new",
    "C75_reversed_solver_exact",
    "C75_exact_solvers_reverse"
   ],
   "note": "Proved in exact arithmetic. C71_anywhere compares the costs and the admissible motions of two generators with views a apart; here the quadratic programs are equal as data and whole histories are compared. The reversed solver of the history theorems is the given one conjugated by the change of sign; C75_exact_solvers_reverse has no such link between the solvers. C75_case meets the hypotheses, with jerks 1/2 and -1/2."
  },
  {
   "property": "C76",
   "status": "proved",
   "theorems": [
    "C76_stays_on_course",
    "C76_stays_for_ever",
    "C76_follows_exactly"
   ],
   "note": "Proved in exact arithmetic, relative to solvers that return a minimiser of the problem they are given whenever there is one. C76_case is a robot at half a metre per second over any number of solves, C76_following_case one with a position reference that moves on."
  }
 ]
}