{
 "claims": [
  {
   "property": "C01",
   "status": "proved",
   "theorems": [
    "C01_from_box_exact",
    "C01_from_box_empty_raises"
   ],
   "note": ""
  },
  {
   "property": "C02",
   "status": "proved",
   "theorems": [
    "C02_from_constraints_exact",
    "C02_from_constraints_projection",
    "C02_from_constraints_raises_iff"
   ],
   "note": ""
  },
  {
   "property": "C03",
   "status": "proved",
   "theorems": [
    "C03_from_zonotope_exact",
    "C03_from_zonotope_bad_generator_raises"
   ],
   "note": ""
  },
  {
   "property": "C04",
   "status": "proved",
   "theorems": [
    "C04_from_input_constraints_exact"
   ],
   "note": ""
  },
  {
   "property": "C05",
   "status": "proved",
   "theorems": [
    "C05_minkowski_sum_exact"
   ],
   "note": ""
  },
  {
   "property": "C06",
   "status": "proved",
   "theorems": [
    "C06_bloat_exact",
    "C06_bloat_negative_raises",
    "C06_scale_with_bm_exact"
   ],
   "note": ""
  },
  {
   "property": "C07",
   "status": "proved",
   "theorems": [
    "C07_reset_exact"
   ],
   "note": ""
  },
  {
   "property": "C08",
   "status": "proved",
   "theorems": [
    "C08_guard_intersection_exact",
    "C08_add_curtime_exact"
   ],
   "note": ""
  },
  {
   "property": "C09",
   "status": "proved",
   "theorems": [
    "C09_check_intersection_exact"
   ],
   "note": ""
  },
  {
   "property": "C10",
   "status": "proved",
   "theorems": [
    "C10_add_init_constraint_exact"
   ],
   "note": ""
  },
  {
   "property": "C11",
   "status": "proved",
   "theorems": [
    "C11_try_replace_exact"
   ],
   "note": ""
  },
  {
   "property": "C12",
   "status": "proved",
   "theorems": [
    "C12_intersect_invariant_exact"
   ],
   "note": ""
  },
  {
   "property": "C13",
   "status": "proved",
   "theorems": [
    "C13_aggregate_exact"
   ],
   "note": ""
  },
  {
   "property": "C14",
   "status": "proved",
   "theorems": [
    "C14_aggregate_chull_contains_hull",
    "C14_aggregate_chull_contains_inputs",
    "C14_aggregate_chull_exact",
    "C14_fuel_irrelevant",
    "C14_aggregate_chull_total"
   ],
   "note": ""
  },
  {
   "property": "C15",
   "status": "proved",
   "theorems": [
    "C15_is_feasible_exact",
    "C15_point_membership_exact",
    "C15_box_center_exact"
   ],
   "note": ""
  },
  {
   "property": "C16",
   "status": "partial",
   "theorems": [
    "C16_initial_sets",
    "C16_input_sets",
    "C16_successor_refuted",
    "C16_compute_radius_inf_partial",
    "C16_compute_radius_inf_refuted"
   ],
   "note": "compute_radius_inf reads column n of the whole LP (lputil.py:1075); exact when that column equals the current variable, refuted otherwise (C16_compute_radius_inf_refuted) C16_initial_sets and C16_input_sets: exact for sets just built. C16_successor_refuted: wrong after a transition."
  },
  {
   "property": "C17",
   "status": "proved",
   "theorems": [
    "C17_step_exact",
    "C17_step_many_exact",
    "C17_step_split",
    "C17_step_back_raises",
    "C17_construct"
   ],
   "note": ""
  },
  {
   "property": "C18",
   "status": "proved",
   "theorems": [
    "C18_time_elapse_history_independent",
    "C18_lgg_sequence",
    "C18_lgg_slow_step_refuted",
    "C18_lgg_switch_history_refuted"
   ],
   "note": ""
  },
  {
   "property": "C19",
   "status": "proved",
   "theorems": [
    "C19_safe_verdict_sound",
    "C19_safe_verdict_time_triggered"
   ],
   "note": "under: inputs only in modes without invariants (C43), zero-dynamics modes skipped only if truly constant (C29), deaggregation only with require_same_path; without time-triggered transitions for all executions (C19_safe_verdict_sound), with them (C19_safe_verdict_time_triggered) for the executions that take transitions inside the invariants, provided the clocks really advance and the flag never outlives its state (both needed: C44_tt_standing_clock_refuted, C44_tt_flag_refuted; strictness needed: C44_tt_drops_step_refuted)"
  },
  {
   "property": "C20",
   "status": "proved",
   "theorems": [
    "C20_concrete_error_real",
    "C20_concrete_error_deagg_partial",
    "C20_concrete_error_deagg",
    "C20_deagg_invariant_refuted",
    "C20_concrete_error_deagg_time_triggered_partial",
    "C20_concrete_error_time_triggered",
    "C20_time_triggered_refuted"
   ],
   "note": "without deaggregation; modes with inputs have no invariant (C43); without time-triggered transitions an execution of the automaton, with them an execution of the automaton with guards relaxed by step/num/1000 (C20_concrete_error_time_triggered; not of the automaton itself: C20_time_triggered_refuted) With deaggregation: C20_concrete_error_deagg (automata without invariants, some number B of steps, which may exceed num_steps: C23), C20_concrete_error_deagg_partial (any automaton: an execution of the automaton without its invariants), C20_concrete_error_deagg_time_triggered_partial (also guards relaxed); C20_deagg_invariant_refuted: with invariants and deaggregation a concrete error is reported that no execution reaches (replay applies an invariant condition only where it cut the aggregated set)."
  },
  {
   "property": "C21",
   "status": "proved",
   "theorems": [
    "C21_deaggregation_decides",
    "C21_require_same_path_refuted",
    "C21_deaggregation_time_triggered"
   ],
   "note": "hypotheses as C19; require_same_path is needed: C21_require_same_path_refuted is a run with require_same_path=False and deaggregation that prints 'safe' although the error is reachable; with time-triggered transitions: C21_deaggregation_time_triggered"
  },
  {
   "property": "C22",
   "status": "proved",
   "theorems": [
    "C22_counterexample_valid",
    "C22_counterexample_error",
    "C22_built_indices",
    "C22_minkowski_init_refuted",
    "C22_deagg_invariant_refuted"
   ],
   "note": "same hypotheses as C20 (no deaggregation, C43, C44), initial sets made by from_box / from_zonotope / from_constraints with default names (C22_minkowski_init_refuted: with minkowski_sum the analysis raises UnboundLocalError), transitions numbered in order (C22_built_indices: every automaton made with the construction functions) With deaggregation and invariants the claim is false: C22_deagg_invariant_refuted."
  },
  {
   "property": "C23",
   "status": "partial",
   "theorems": [
    "C23_errors_within_bound_partial",
    "C23_errors_within_bound_refuted"
   ],
   "note": "proved without deaggregation (same hypotheses as C20); with deaggregation the property is false: C23_errors_within_bound_refuted exhibits a concrete error reported past the time bound"
  },
  {
   "property": "C24",
   "status": "proved",
   "theorems": [
    "C24_terminates",
    "C24_terminates_deagg",
    "C24_fuel_irrelevant",
    "C24_urgent_cycle_never_finishes",
    "C24_terminates_urgent_refuted",
    "C24_approx_terminates",
    "C24_chull_terminates"
   ],
   "note": "C24_terminates: explicit bound, process_urgent_guards off, no deaggregation. C24_terminates_deagg: also with deaggregation when require_same_path holds (the default), and with process_urgent_guards when the transitions form no cycle. C24_urgent_cycle_never_finishes / C24_terminates_urgent_refuted: with process_urgent_guards a cycle of transitions that can be taken without time passing is never finished. Not covered: deaggregation with require_same_path=False. C24_chull_terminates: the same with approx_model = APPROX_CHULL. C24_approx_terminates: the analysis with any approximation model (APPROX_LGG for automata without inputs)."
  },
  {
   "property": "C25",
   "status": "proved",
   "theorems": [
    "C25_pop_waiting_list",
    "C25_pop_selects"
   ],
   "note": ""
  },
  {
   "property": "C26",
   "status": "proved",
   "theorems": [
    "C26_child_pointers",
    "C26_parents",
    "C26_op_lists",
    "C26_pending_work_is_attached",
    "C26_walks_terminate",
    "C26_concrete",
    "C26_recorded_operations"
   ],
   "note": ""
  },
  {
   "property": "C27",
   "status": "proved",
   "theorems": [
    "C27_strengthening_preserves_reachability",
    "C27_strengthening_adds_nothing",
    "C27_guard_implies_invariant",
    "C27_empty_guard_row_refuted",
    "C27_strengthening_raises_refuted"
   ],
   "note": "C27_strengthening_raises_refuted (corner, not part of the claim): almost_equals raises when a guard row and an invariant have the same right-hand side and different numbers of entries (neither 1). C27_guard_implies_invariant: after strengthening the guard implies the invariant of the target (up to the 1e-13 tolerance of almost_equals), for guard rows with at least one entry; C27_empty_guard_row_refuted: an empty guard row (0 <= 5) is taken for the target invariant x <= 5 because numpy broadcasts the empty index array, so that invariant is not added."
  },
  {
   "property": "C28",
   "status": "proved",
   "theorems": [
    "C28_tt_taken_means_at_boundary",
    "C28_relaxation",
    "C28_clocks",
    "C28_clock_rate",
    "C28_marked"
   ],
   "note": ""
  },
  {
   "property": "C29",
   "status": "proved",
   "theorems": [
    "C29_skip_zero_dynamics_harmless",
    "C29_skip_zero_dynamics_inputs_refuted"
   ],
   "note": "harmless without inputs; refuted for zero-dynamics modes with inputs (C29_skip_zero_dynamics_inputs_refuted)"
  },
  {
   "property": "C30",
   "status": "partial",
   "theorems": [
    "C30_next_batch",
    "C30_starts_in_box",
    "C30_traces",
    "C30_single",
    "C30_single_error_real",
    "C30_terminates",
    "C30_batch_refuted",
    "C30_unaggregated_refuted"
   ],
   "note": "every stored line is an execution in one mode, complete and continued by another line, every start begins a line, the simulation ends; \"guards at step 0 only with urgent guards\" is proved for one simulation (C30_single, C30_single_error_real) and refuted for batches (C30_batch_refuted: shared flag sim_should_try_guards); Unaggregated always fails (C30_unaggregated_refuted)"
  },
  {
   "property": "C31",
   "status": "proved",
   "theorems": [
    "C31_extract_linear_terms",
    "C31_make_dynamics_mat",
    "C31_accepts",
    "C31_make_reset_mat"
   ],
   "note": "sympy (parse_expr, subs) is an oracle returning an expression tree; the theorem is about the value of that tree"
  },
  {
   "property": "C32",
   "status": "proved",
   "theorems": [
    "C32_make_condition",
    "C32_accepts"
   ],
   "note": "assumes of sympy only that the text 'l - (r)' denotes the difference of l and r, for the given conditions"
  },
  {
   "property": "C33",
   "status": "proved",
   "theorems": [
    "C33_accounting",
    "C33_well_nested",
    "C33_tic_never_raises",
    "C33_toc",
    "C33_children_time"
   ],
   "note": "tree of timers refines a call log; the clock is an argument"
  },
  {
   "property": "C34",
   "status": "proved",
   "theorems": [
    "C34_setattr",
    "C34_frozen",
    "C34_frozen_refuted"
   ],
   "note": "for assignments that leave _frozen true; assigning _frozen=False unfreezes (C34_frozen_refuted)"
  },
  {
   "property": "C35",
   "status": "proved",
   "theorems": [
    "C35_names_unambiguous",
    "C35_names_decoded",
    "C35_names_given"
   ],
   "note": ""
  },
  {
   "property": "C36",
   "status": "proved",
   "theorems": [
    "C36_minimize",
    "C36_refines",
    "C36_timers"
   ],
   "note": "solver answers may differ at each call; also: timers stay balanced except when minimize raises RuntimeError/AssertionError"
  },
  {
   "property": "C37",
   "status": "proved",
   "theorems": [
    "C37_2d",
    "C37_time",
    "C37_time_direction",
    "C37_both_time_refuted"
   ],
   "note": "2-d: every vertex is the projection of a point of the set and the polygon is closed, for every hull/SVD oracle; plots over time (dimension or direction) are exactly the rectangle time x range up to 1e-9. xdim = ydim = None, documented as allowed, always raises (C37_both_time_refuted)."
  },
  {
   "property": "C38",
   "status": "partial",
   "theorems": [
    "C38_one_subplot",
    "C38_any_subplots_partial",
    "C38_two_subplots_refuted"
   ],
   "note": "exact for one subplot; with several subplots only the first record found is removed (C38_two_subplots_refuted)"
  },
  {
   "property": "C39",
   "status": "proved",
   "theorems": [
    "C39_num_steps",
    "C39_nonneg",
    "C39_binary64_refuted"
   ],
   "note": "over exact rationals; with binary64 division the claim fails, e.g. HylaaSettings(0.3, 0.9) (C39_binary64_refuted)"
  },
  {
   "property": "C40",
   "status": "proved",
   "theorems": [
    "C40_guard_agrees",
    "C40_reset_agrees",
    "C40_invariant_agrees"
   ],
   "note": "guards and resets exact; the invariant cut keeps points violating a condition by less than 1e-13, as the code's tolerance says"
  },
  {
   "property": "C41",
   "status": "proved",
   "theorems": [
    "C41_introspection_roundtrip",
    "C41_clone",
    "C41_get_row",
    "C41_get_dense_constraints",
    "C41_get_rhs_lower_bound_refuted"
   ],
   "note": ""
  },
  {
   "property": "C42",
   "status": "proved",
   "theorems": [
    "C42_set_dynamics_accepts",
    "C42_set_invariant_accepts",
    "C42_set_guard_accepts",
    "C42_set_inputs_accepts",
    "C42_set_reset_accepts",
    "C42_check_transitions_accepts",
    "C42_accepted_automata_are_well_formed",
    "C42_late_dynamics_refuted",
    "C42_new_mode",
    "C42_new_mode_effect",
    "C42_distinct_names",
    "C42_constant_inputs"
   ],
   "note": "accept conditions exact for each setter (given a complete solver); accepted automata with dynamics set first are well formed; refuted when set_dynamics is called after set_guard (C42_late_dynamics_refuted); C42_constant_inputs: without allow_constants exactly the inputs that act on one variable and are pinned by direct bounds are refused."
  },
  {
   "property": "C43",
   "status": "partial",
   "theorems": [
    "C43_executions_inside_partial",
    "C43_inputs_invariants_refuted"
   ],
   "note": "refuted in general: a run that prints safe although the error is reachable (C43_inputs_invariants_refuted); proved when the invariant cuts no set of a mode with inputs"
  },
  {
   "property": "C44",
   "status": "partial",
   "theorems": [
    "C44_tt_flag_refuted",
    "C44_flag_partial",
    "C44_tt_urgent_refuted",
    "C44_tt_drops_step_refuted",
    "C44_tt_standing_clock_refuted"
   ],
   "note": "refuted in general with default settings (C44_tt_flag_refuted: a flag raised in the last step before the time bound, or by a zero-dynamics mode, stays raised and discards the next state: wrong 'safe'); proved: whenever a step raises a clear flag and leaves a state current, that state's set lies at the guard boundary of a time-triggered transition of its mode, and the next step below the time bound discards exactly that state, clears the flag and touches no other set or the waiting list; further refuted: the optimisation drops the step out of the invariant that the analysis otherwise follows (C44_tt_drops_step_refuted), and treats a variable that stands still at the boundary as an expired clock (C44_tt_standing_clock_refuted: wrong 'safe'); with process_urgent_guards a time-triggered transition taken on entry drops the rest of the mode although the clock moves away from the guard (C44_tt_urgent_refuted: wrong 'safe')"
  },
  {
   "property": "C45",
   "status": "partial",
   "theorems": [
    "C45_printed_verdict_truthful_partial",
    "C45_printed_verdict_refuted"
   ],
   "note": "truthful for the first safe message and, with deaggregation, for the second; refuted for the second message with deaggregate=False (C45_printed_verdict_refuted)"
  },
  {
   "property": "C46",
   "status": "partial",
   "theorems": [
    "C46_chull_first_segment",
    "C46_chull_covers_steps",
    "C46_lgg_first_segment",
    "C46_none",
    "C46_lgg_radius_refuted",
    "C46_stale_rows_refuted",
    "C46_lgg_later_steps",
    "C46_lgg_without_beta_refuted",
    "C46_lgg_covers_trajectories"
   ],
   "note": "Convex hull model: the first set contains every point between an entry state and its successors and, for bounded sets, nothing else; with no invariant row recorded yet, after n steps the set covers the whole segment between the steps n and n+1 of every execution. LGG model: the first set is exactly the hull prescribed by the formula, with the radius compute_radius_inf returns, and the set after k more steps is exactly E^k of it plus the sums of E^i (tau V + [-beta, beta]^n) (C46_lgg_later_steps; no invariant row recorded yet). Missing/refuted: invariant rows of the replaced LP are reused and lose states (C46_stale_rows_refuted); the LGG radius is wrong for successors of a transition (C46_lgg_radius_refuted); a state set that did not go through apply_approx_model (deaggregation) cannot be advanced in a mode using LGG (C46_lgg_without_beta_refuted). C46_lgg_covers_trajectories: for a fresh initial set without inputs the first LGG set contains every point within t (exp(tau |A|) - 1 - tau |A|) |p| of the straight line of a step, which is where Taylor's formula puts a trajectory between two samples. That Taylor bound itself (exp is an oracle) is not proved."
  },
  {
   "property": "C47",
   "status": "partial",
   "theorems": [
    "C47_replay_checks_partial",
    "C47_replay_output",
    "C47_sample_times_partial",
    "C47_sample_times_refuted",
    "C47_one_step_refuted",
    "C47_no_step_refuted",
    "C47_valid_rejected_refuted"
   ],
   "note": "a replay succeeds exactly when the listed checks hold, with exactly these points and times returned; the last sample of a segment of two or more steps is its end time; samples in between are never at a step (C47_sample_times_refuted), segments of one or no step are rejected (C47_one_step_refuted, C47_no_step_refuted), also in valid counter-examples (C47_valid_rejected_refuted)"
  },
  {
   "property": "C48",
   "status": "proved",
   "theorems": [
    "C48_swig"
   ],
   "note": ""
  },
  {
   "property": "C49",
   "status": "partial",
   "theorems": [
    "C49_pt_to_plot_xy_partial",
    "C49_ydim_zero_refuted",
    "C49_direction_refuted"
   ],
   "note": "exact for numbers and None with ydim <> 0; ydim = 0 gives the time, directions raise (refuted)"
  },
  {
   "property": "C50",
   "status": "proved",
   "theorems": [
    "C50_hull",
    "C50_exact",
    "C50_contains_executions"
   ],
   "note": ""
  },
  {
   "property": "C51",
   "status": "partial",
   "theorems": [
    "C51_first_record_partial",
    "C51_get_verts_list_refuted"
   ],
   "note": "the property is false of the code: only the first record is returned (C51_get_verts_list_refuted)"
  },
  {
   "property": "C52",
   "status": "partial",
   "theorems": [
    "C52_accuracy",
    "C52_terminates",
    "C52_segment",
    "C52_far_set_refuted",
    "C52_flat_set_refuted"
   ],
   "note": "Accuracy of every facet, segments that are not parallel to an axis, and termination are proved under the oracle contracts hull_ok / orth_ok. Refuted: far from the origin the relative np.allclose collapses a set to a point (C52_far_set_refuted); sets flat in x are cut short when the solver breaks ties differently (C52_flat_set_refuted)."
  },
  {
   "property": "C53",
   "status": "partial",
   "theorems": [
    "C53_initial_error_mode_refuted"
   ],
   "note": "the property is false of the code for every automaton and setting: C53_initial_error_mode_refuted proves that a finished run whose initial sets all lie in error modes prints 'System is safe'"
  },
  {
   "property": "C54",
   "status": "partial",
   "theorems": [
    "C54_check",
    "C54_check_exact",
    "C54_succeeds",
    "C54_default_samples_refuted",
    "C54_uneven_samples_refuted",
    "C54_close_inputs_refuted",
    "C54_sim_time_refuted",
    "C54_no_inputs_refuted",
    "C54_step_count"
   ],
   "note": "A check that returns has followed the exact trajectory for inputs np.allclose to those given (C54_check), the given ones if close inputs are equal (C54_check_exact); it returns for valid arguments with more inputs than samples, or evenly divided samples with old numpy (C54_succeeds). Refuted: with numpy >= 1.18 it raises TypeError for at most approx_samples inputs (C54_default_samples_refuted), older numpy fails on uneven samples, merged close inputs change the trajectory, sim_time is max_time even if the inputs end earlier, and inputs=None with an input matrix always fails."
  },
  {
   "property": "C55",
   "status": "partial",
   "theorems": [
    "C55_limits_exact",
    "C55_points_shown_partial",
    "C55_flat_refuted"
   ],
   "note": "The kept limits are exactly the bounding box (C55_limits_exact) and all points are shown once two x and two y values differ (C55_points_shown_partial). Refuted: with a constant x or y the axes never grow after the first point (C55_flat_refuted)."
  },
  {
   "property": "C56",
   "status": "partial",
   "theorems": [
    "C56_answers",
    "C56_same_mode",
    "C56_distinct_modes",
    "C56_too_many_modes_refuted",
    "C56_synonyms_refuted",
    "C56_all_colors",
    "C56_init_succeeds",
    "C56_shades"
   ],
   "note": "Stable colours and distinct names up to the number of colours are proved; refuted: one mode too many repeats the first colour, and synonyms in the colour table (cyan/aqua) draw two modes alike."
  },
  {
   "property": "C57",
   "status": "partial",
   "theorems": [
    "C57_visible",
    "C57_markers_stay_refuted",
    "C57_mixed_refuted",
    "C57_stored_without_plot_refuted",
    "C57_mode_name_refuted",
    "C57_current_state_apart",
    "C57_stored_one_subplot"
   ],
   "note": "Proved for polygons with more than two vertices (or markers switched off). Refuted: sets drawn as markers (default for sets with at most two vertices) are never removed, mixed subplots raise ValueError, stored data are stale with PLOT_NONE, a mode named cur_state loses its polygons.; with one subplot the stored plot data follow the polygons exactly (C57_stored_one_subplot)"
  },
  {
   "property": "C58",
   "status": "proved",
   "theorems": [
    "C58_current_lines",
    "C58_committed_lines"
   ],
   "note": ""
  },
  {
   "property": "C59",
   "status": "partial",
   "theorems": [
    "C59_make_direction_matrix",
    "C59_arnoldi_directions",
    "C59_never_stuck",
    "C59_reorthogonalize_partial",
    "C59_reorthogonalize_orthogonal",
    "C59_reorthogonalize_refuted",
    "C59_argument_overwritten_refuted"
   ],
   "note": "make_direction_matrix: proved (over exact reals; random draws arbitrary; loop never stuck). reorthogonalize_matrix: QR basis proved when the rows are independent and vanish on as many coordinates as rows are missing; refuted in general: cur_vec is still the object rv[-1] when the rows run out and no coordinate is free, so the in-place projection turns the last row into zero (one row (3,4) in two dimensions returns {0, e0}); its ndarray argument is overwritten."
  },
  {
   "property": "C60",
   "status": "proved",
   "theorems": [
    "C60_when",
    "C60_which"
   ],
   "note": ""
  },
  {
   "property": "C61",
   "status": "partial",
   "theorems": [
    "C61_chull_safe_in_dense_time_partial",
    "C61_none_is_plain",
    "C61_default_refuted",
    "C61_deaggregation_refuted",
    "C61_concrete_error_refuted",
    "C61_lgg_unaggregated_returns_safe",
    "C61_lgg_safe_in_dense_time_partial",
    "C61_chull_unaggregated_returns_safe"
   ],
   "note": "Proved for automata without invariants (with invariants the hull is lost: C46_stale_rows_refuted), no deaggregation. process_urgent_guards = True: every moment is covered; False (the default): only transitions taken after at least one full step; refuted otherwise (C61_default_refuted): guards in the first segment after entering a mode are never checked. Trajectories between samples are straight lines, as the hull assumes; APPROX_LGG: the whole analysis for automata without inputs (C61_lgg_safe_in_dense_time_partial, with any exponential satisfying 1 + x <= exp x); with inputs only set by set (C46), because the analysis model does not carry lgg_beta. Two more refutations: with deaggregation on, split state sets are replayed without the approximation model, so the run ends with no concrete error although a dense-time execution enters the error mode (C61_deaggregation_refuted); and an error found only in states added by the hull is reported as a concrete one (C61_concrete_error_refuted). With make_counterexample = True the analysis raises when it finds an error (C66_chull_counterexample_refuted). Without aggregation and with make_counterexample = True the mere fact that the analysis returns proves safety in dense time (C61_chull_unaggregated_returns_safe). The same for APPROX_LGG without inputs (C61_lgg_unaggregated_returns_safe)."
  },
  {
   "property": "C62",
   "status": "partial",
   "theorems": [
    "C62_second_analysis_same",
    "C62_second_analysis_safe",
    "C62_second_analysis_concrete_partial",
    "C62_strengthened_guard_refuted",
    "C62_relaxed_guard_kept_refuted",
    "C62_raises_refuted",
    "C62_same_initial_sets_refuted"
   ],
   "note": "Proved: without the time-triggered optimisation the second analysis computes exactly what the first would (or raises); a safe verdict of the second analysis carries over to the original automaton whatever the first did; a concrete error does if the first analysis marked no time-triggered transition. False of the code otherwise: the strengthened guard is taken for a time-triggered one by the second analysis, which then says safe where the first reported a real error (C62_strengthened_guard_refuted, with process_urgent_guards); relaxed guards stay relaxed with the optimisation off (C62_relaxed_guard_kept_refuted); the comparison of constraints raises in the second analysis (C62_raises_refuted); passing the same StateSet objects twice analyses from where the first run stopped (C62_same_initial_sets_refuted)."
  },
  {
   "property": "C63",
   "status": "proved",
   "theorems": [
    "C63_never_aggregated",
    "C63_unaggregated_exact",
    "C63_unaggregated_iff",
    "C63_settings_agree",
    "C63_unaggregated_settings",
    "C63_aggregation_differs"
   ],
   "note": "C63_unaggregated_exact combines C19, C20 and the invariant C63_never_aggregated (CoreConc.v); C63_unaggregated_iff, C63_settings_agree and C63_unaggregated_settings are for automata without invariants, where the 1e-13 tolerance plays no role. As in C19/C20: runs that do not mark time-triggered transitions."
  },
  {
   "property": "C64",
   "status": "partial",
   "theorems": [
    "C64_get_plot_data",
    "C64_total",
    "C64_click_partial",
    "C64_click_outside_refuted"
   ],
   "note": "sympy's Polygon.encloses_point is an oracle. get_plot_data is proved completely; the click listener raises TypeError when no polygon encloses the point (C64_click_outside_refuted)."
  },
  {
   "property": "C65",
   "status": "proved",
   "theorems": [
    "C65_histories",
    "C65_last_direction",
    "C65_get_types",
    "C65_get_rhs",
    "C65_get_rhs_rows",
    "C65_get_full",
    "C65_get_row",
    "C65_get_dense",
    "C65_from_constraints",
    "C65_from_box",
    "C65_duplicate_column_aborts"
   ],
   "note": "Array-level model of lpinstance.py with GLPK's 1-based problem object (GLPK's functions as its reference manual describes them) proved to refine LpModel.v on every history of calls. Conditions on the caller: canonical scipy matrices, non-overlapping column blocks in set_reach_vars (both are needed: C65_duplicate_column_aborts). from_constraints and from_box are proved to be such histories."
  },
  {
   "property": "C66",
   "status": "proved",
   "theorems": [
    "C66_lgg_unsafe_always_raises_refuted",
    "C66_lgg_error_never_returned",
    "C66_lgg_same_or_raises",
    "C66_lgg_reported_error_raises_refuted",
    "C66_lgg_never_raises",
    "C66_lgg_returns",
    "C66_run_never_raises",
    "C66_run_returns",
    "C66_setup_ha_never_raises",
    "C66_constraints_bounded",
    "C66_box_bounded",
    "C66_unbounded_set_refuted",
    "C66_chull_never_raises",
    "C66_chull_counterexample_refuted",
    "C66_chull_returns",
    "C66_chull_error_never_returned",
    "C66_chull_same_or_raises",
    "C66_chull_reported_error_raises_refuted",
    "C66_chull_unsafe_always_raises_refuted",
    "C66_deaggregation_never_raises",
    "C66_deaggregation_unmarked_never_raises",
    "C66_deaggregation_time_triggered_never_raises",
    "C66_deaggregation_returns"
   ],
   "note": "C66_run_never_raises: every kind of aggregation, without deaggregation, counter-examples included. C66_deaggregation_never_raises: with deaggregation, for require_same_path and (stop_on_aggregated_error implies stop_on_concrete_error), counter-examples included and going on after concrete errors included (C66_deagg_goes_on_witness); time-triggered transitions either absent or (C66_deaggregation_time_triggered_never_raises) with running clocks and a consumed flag, the hypotheses of C19. Uses a complete solver (a failing call means an unbounded objective) and arnoldi directions of the right width. rows_comparable is only needed with guard strengthening (C27_strengthening_raises_refuted), index_ok and initial sets made by from_box/from_constraints only with make_counterexample. Boundedness is needed: C66_unbounded_set_refuted. C66_chull_never_raises: with approx_model = APPROX_CHULL, for automata without invariants and with make_counterexample = False; it then returns a result (C66_chull_returns); with make_counterexample = True (the default) an error found raises UnboundLocalError instead of being reported (C66_chull_counterexample_refuted): the columns of a hull have no name m<id>_i0. In general (C66_chull_error_never_returned): without deaggregation and with make_counterexample = True, no analysis with APPROX_CHULL that returns reports a concrete error, for every automaton and solver; the analysis with the default make_counterexample = True either equals the one with False or raises (C66_chull_same_or_raises), and raises whenever the one with False reports a concrete error (C66_chull_reported_error_raises_refuted); without aggregation every automaton that is unsafe in dense time ends in an exception (C66_chull_unsafe_always_raises_refuted). C66_lgg_never_raises, C66_lgg_returns: the same for APPROX_LGG on automata without inputs (any exponential with 1 + x <= exp x). Neither covers invariants; C66_lgg_error_never_returned, C66_lgg_same_or_raises and C66_lgg_reported_error_raises_refuted show the same loss of counter-examples there (automata without inputs). Likewise with APPROX_LGG without inputs and without aggregation every automaton unsafe in dense time ends in an exception (C66_lgg_unsafe_always_raises_refuted)."
  },
  {
   "property": "C67",
   "status": "partial",
   "theorems": [
    "C67_saved_plot_complete",
    "C67_safe_verdict_sound",
    "C67_concrete_error_real",
    "C67_live_frame",
    "C67_step_button",
    "C67_next_button",
    "C67_next_stops_at_pop",
    "C67_next_stops_only_at_pop",
    "C67_paused_waits",
    "C67_skip_count",
    "C67_video_pause",
    "C67_same_result",
    "C67_every_mode_completes",
    "C67_closed_window_refuted"
   ],
   "note": "Everything but the last sentence is proved; that one is false (C67_closed_window_refuted: closing an interactive or live window early prints 'System is safe' although an error is reachable). Drawing is an oracle that may set any objective of any state set; matplotlib is assumed to call the frame function for each yielded frame. Soundness theorems under the hypotheses of C19/C20 without time-triggered transitions; equality of results when drawing leaves objectives alone."
  },
  {
   "property": "C68",
   "status": "partial",
   "theorems": [
    "C68_plots",
    "C68_again",
    "C68_mode_projection",
    "C68_time_directions",
    "C68_time_on_y_refuted"
   ],
   "note": "C68_time_on_y_refuted: a plot with time on the y axis gets all directions instead of the two horizontal ones and is refused with fewer than three angles (plotutil.py:420 tests the whole list)."
  }
 ]
}