{
 "C16": {
  "status": "partial",
  "note": "compute_radius_inf reads column n of the whole LP (lputil.py:1075); exact when that column equals the current variable, refuted otherwise (C16_compute_radius_inf_refuted) C16_initial_sets and C16_input_sets: exact for sets just built. C16_successor_refuted: wrong after a transition."
 },
 "C42": {
  "status": "proved",
  "note": "accept conditions exact for each setter (given a complete solver); accepted automata with dynamics set first are well formed; refuted when set_dynamics is called after set_guard (C42_late_dynamics_refuted); C42_constant_inputs: without allow_constants exactly the inputs that act on one variable and are pinned by direct bounds are refused."
 },
 "C40": {
  "status": "proved",
  "note": "guards and resets exact; the invariant cut keeps points violating a condition by less than 1e-13, as the code's tolerance says"
 },
 "C44": {
  "status": "partial",
  "note": "refuted in general with default settings (C44_tt_flag_refuted: a flag raised in the last step before the time bound, or by a zero-dynamics mode, stays raised and discards the next state: wrong 'safe'); proved: whenever a step raises a clear flag and leaves a state current, that state's set lies at the guard boundary of a time-triggered transition of its mode, and the next step below the time bound discards exactly that state, clears the flag and touches no other set or the waiting list; further refuted: the optimisation drops the step out of the invariant that the analysis otherwise follows (C44_tt_drops_step_refuted), and treats a variable that stands still at the boundary as an expired clock (C44_tt_standing_clock_refuted: wrong 'safe'); with process_urgent_guards a time-triggered transition taken on entry drops the rest of the mode although the clock moves away from the guard (C44_tt_urgent_refuted: wrong 'safe')"
 },
 "C45": {
  "status": "partial",
  "note": "truthful for the first safe message and, with deaggregation, for the second; refuted for the second message with deaggregate=False (C45_printed_verdict_refuted)"
 },
 "C29": {
  "status": "proved",
  "note": "harmless without inputs; refuted for zero-dynamics modes with inputs (C29_skip_zero_dynamics_inputs_refuted)"
 },
 "C19": {
  "status": "proved",
  "note": "under: inputs only in modes without invariants (C43), zero-dynamics modes skipped only if truly constant (C29), deaggregation only with require_same_path; without time-triggered transitions for all executions (C19_safe_verdict_sound), with them (C19_safe_verdict_time_triggered) for the executions that take transitions inside the invariants, provided the clocks really advance and the flag never outlives its state (both needed: C44_tt_standing_clock_refuted, C44_tt_flag_refuted; strictness needed: C44_tt_drops_step_refuted)"
 },
 "C20": {
  "status": "proved",
  "note": "without deaggregation; modes with inputs have no invariant (C43); without time-triggered transitions an execution of the automaton, with them an execution of the automaton with guards relaxed by step/num/1000 (C20_concrete_error_time_triggered; not of the automaton itself: C20_time_triggered_refuted) With deaggregation: C20_concrete_error_deagg (automata without invariants, some number B of steps, which may exceed num_steps: C23), C20_concrete_error_deagg_partial (any automaton: an execution of the automaton without its invariants), C20_concrete_error_deagg_time_triggered_partial (also guards relaxed); C20_deagg_invariant_refuted: with invariants and deaggregation a concrete error is reported that no execution reaches (replay applies an invariant condition only where it cut the aggregated set)."
 },
 "C23": {
  "status": "partial",
  "note": "proved without deaggregation (same hypotheses as C20); with deaggregation the property is false: C23_errors_within_bound_refuted exhibits a concrete error reported past the time bound"
 },
 "C34": {
  "status": "proved",
  "note": "for assignments that leave _frozen true; assigning _frozen=False unfreezes (C34_frozen_refuted)"
 },
 "C38": {
  "status": "partial",
  "note": "exact for one subplot; with several subplots only the first record found is removed (C38_two_subplots_refuted)"
 },
 "C39": {
  "status": "proved",
  "note": "over exact rationals; with binary64 division the claim fails, e.g. HylaaSettings(0.3, 0.9) (C39_binary64_refuted)"
 },
 "C51": {
  "status": "partial",
  "note": "the property is false of the code: only the first record is returned (C51_get_verts_list_refuted)"
 },
 "C33": {
  "status": "proved",
  "note": "tree of timers refines a call log; the clock is an argument"
 },
 "C36": {
  "status": "proved",
  "note": "solver answers may differ at each call; also: timers stay balanced except when minimize raises RuntimeError/AssertionError"
 },
 "C31": {
  "status": "proved",
  "note": "sympy (parse_expr, subs) is an oracle returning an expression tree; the theorem is about the value of that tree"
 },
 "C32": {
  "status": "proved",
  "note": "assumes of sympy only that the text 'l - (r)' denotes the difference of l and r, for the given conditions"
 },
 "C22": {
  "status": "proved",
  "note": "same hypotheses as C20 (no deaggregation, C43, C44), initial sets made by from_box / from_zonotope / from_constraints with default names (C22_minkowski_init_refuted: with minkowski_sum the analysis raises UnboundLocalError), transitions numbered in order (C22_built_indices: every automaton made with the construction functions) With deaggregation and invariants the claim is false: C22_deagg_invariant_refuted."
 },
 "C30": {
  "status": "partial",
  "note": "every stored line is an execution in one mode, complete and continued by another line, every start begins a line, the simulation ends; \"guards at step 0 only with urgent guards\" is proved for one simulation (C30_single, C30_single_error_real) and refuted for batches (C30_batch_refuted: shared flag sim_should_try_guards); Unaggregated always fails (C30_unaggregated_refuted)"
 },
 "C43": {
  "status": "partial",
  "note": "refuted in general: a run that prints safe although the error is reachable (C43_inputs_invariants_refuted); proved when the invariant cuts no set of a mode with inputs"
 },
 "C47": {
  "status": "partial",
  "note": "a replay succeeds exactly when the listed checks hold, with exactly these points and times returned; the last sample of a segment of two or more steps is its end time; samples in between are never at a step (C47_sample_times_refuted), segments of one or no step are rejected (C47_one_step_refuted, C47_no_step_refuted), also in valid counter-examples (C47_valid_rejected_refuted)"
 },
 "C49": {
  "status": "partial",
  "note": "exact for numbers and None with ydim <> 0; ydim = 0 gives the time, directions raise (refuted)"
 },
 "C46": {
  "status": "partial",
  "note": "Convex hull model: the first set contains every point between an entry state and its successors and, for bounded sets, nothing else; with no invariant row recorded yet, after n steps the set covers the whole segment between the steps n and n+1 of every execution. LGG model: the first set is exactly the hull prescribed by the formula, with the radius compute_radius_inf returns, and the set after k more steps is exactly E^k of it plus the sums of E^i (tau V + [-beta, beta]^n) (C46_lgg_later_steps; no invariant row recorded yet). Missing/refuted: invariant rows of the replaced LP are reused and lose states (C46_stale_rows_refuted); the LGG radius is wrong for successors of a transition (C46_lgg_radius_refuted); a state set that did not go through apply_approx_model (deaggregation) cannot be advanced in a mode using LGG (C46_lgg_without_beta_refuted). C46_lgg_covers_trajectories: for a fresh initial set without inputs the first LGG set contains every point within t (exp(tau |A|) - 1 - tau |A|) |p| of the straight line of a step, which is where Taylor's formula puts a trajectory between two samples. That Taylor bound itself (exp is an oracle) is not proved."
 },
 "C37": {
  "status": "proved",
  "note": "2-d: every vertex is the projection of a point of the set and the polygon is closed, for every hull/SVD oracle; plots over time (dimension or direction) are exactly the rectangle time x range up to 1e-9. xdim = ydim = None, documented as allowed, always raises (C37_both_time_refuted)."
 },
 "C52": {
  "status": "partial",
  "note": "Accuracy of every facet, segments that are not parallel to an axis, and termination are proved under the oracle contracts hull_ok / orth_ok. Refuted: far from the origin the relative np.allclose collapses a set to a point (C52_far_set_refuted); sets flat in x are cut short when the solver breaks ties differently (C52_flat_set_refuted)."
 },
 "C53": {
  "status": "partial",
  "note": "the property is false of the code for every automaton and setting: C53_initial_error_mode_refuted proves that a finished run whose initial sets all lie in error modes prints 'System is safe'"
 },
 "C21": {
  "status": "proved",
  "note": "hypotheses as C19; require_same_path is needed: C21_require_same_path_refuted is a run with require_same_path=False and deaggregation that prints 'safe' although the error is reachable; with time-triggered transitions: C21_deaggregation_time_triggered"
 },
 "C24": {
  "status": "proved",
  "note": "C24_terminates: explicit bound, process_urgent_guards off, no deaggregation. C24_terminates_deagg: also with deaggregation when require_same_path holds (the default), and with process_urgent_guards when the transitions form no cycle. C24_urgent_cycle_never_finishes / C24_terminates_urgent_refuted: with process_urgent_guards a cycle of transitions that can be taken without time passing is never finished. Not covered: deaggregation with require_same_path=False. C24_chull_terminates: the same with approx_model = APPROX_CHULL. C24_approx_terminates: the analysis with any approximation model (APPROX_LGG for automata without inputs)."
 },
 "C54": {
  "status": "partial",
  "note": "A check that returns has followed the exact trajectory for inputs np.allclose to those given (C54_check), the given ones if close inputs are equal (C54_check_exact); it returns for valid arguments with more inputs than samples, or evenly divided samples with old numpy (C54_succeeds). Refuted: with numpy >= 1.18 it raises TypeError for at most approx_samples inputs (C54_default_samples_refuted), older numpy fails on uneven samples, merged close inputs change the trajectory, sim_time is max_time even if the inputs end earlier, and inputs=None with an input matrix always fails."
 },
 "C55": {
  "status": "partial",
  "note": "The kept limits are exactly the bounding box (C55_limits_exact) and all points are shown once two x and two y values differ (C55_points_shown_partial). Refuted: with a constant x or y the axes never grow after the first point (C55_flat_refuted)."
 },
 "C56": {
  "status": "partial",
  "note": "Stable colours and distinct names up to the number of colours are proved; refuted: one mode too many repeats the first colour, and synonyms in the colour table (cyan/aqua) draw two modes alike."
 },
 "C57": {
  "status": "partial",
  "note": "Proved for polygons with more than two vertices (or markers switched off). Refuted: sets drawn as markers (default for sets with at most two vertices) are never removed, mixed subplots raise ValueError, stored data are stale with PLOT_NONE, a mode named cur_state loses its polygons.; with one subplot the stored plot data follow the polygons exactly (C57_stored_one_subplot)"
 },
 "C59": {
  "status": "partial",
  "note": "make_direction_matrix: proved (over exact reals; random draws arbitrary; loop never stuck). reorthogonalize_matrix: QR basis proved when the rows are independent and vanish on as many coordinates as rows are missing; refuted in general: cur_vec is still the object rv[-1] when the rows run out and no coordinate is free, so the in-place projection turns the last row into zero (one row (3,4) in two dimensions returns {0, e0}); its ndarray argument is overwritten."
 },
 "C61": {
  "status": "partial",
  "note": "Proved for automata without invariants (with invariants the hull is lost: C46_stale_rows_refuted), no deaggregation. process_urgent_guards = True: every moment is covered; False (the default): only transitions taken after at least one full step; refuted otherwise (C61_default_refuted): guards in the first segment after entering a mode are never checked. Trajectories between samples are straight lines, as the hull assumes; APPROX_LGG: the whole analysis for automata without inputs (C61_lgg_safe_in_dense_time_partial, with any exponential satisfying 1 + x <= exp x); with inputs only set by set (C46), because the analysis model does not carry lgg_beta. Two more refutations: with deaggregation on, split state sets are replayed without the approximation model, so the run ends with no concrete error although a dense-time execution enters the error mode (C61_deaggregation_refuted); and an error found only in states added by the hull is reported as a concrete one (C61_concrete_error_refuted). With make_counterexample = True the analysis raises when it finds an error (C66_chull_counterexample_refuted). Without aggregation and with make_counterexample = True the mere fact that the analysis returns proves safety in dense time (C61_chull_unaggregated_returns_safe). The same for APPROX_LGG without inputs (C61_lgg_unaggregated_returns_safe)."
 },
 "C62": {
  "status": "partial",
  "note": "Proved: without the time-triggered optimisation the second analysis computes exactly what the first would (or raises); a safe verdict of the second analysis carries over to the original automaton whatever the first did; a concrete error does if the first analysis marked no time-triggered transition. False of the code otherwise: the strengthened guard is taken for a time-triggered one by the second analysis, which then says safe where the first reported a real error (C62_strengthened_guard_refuted, with process_urgent_guards); relaxed guards stay relaxed with the optimisation off (C62_relaxed_guard_kept_refuted); the comparison of constraints raises in the second analysis (C62_raises_refuted); passing the same StateSet objects twice analyses from where the first run stopped (C62_same_initial_sets_refuted)."
 },
 "C27": {
  "status": "proved",
  "note": "C27_strengthening_raises_refuted (corner, not part of the claim): almost_equals raises when a guard row and an invariant have the same right-hand side and different numbers of entries (neither 1). C27_guard_implies_invariant: after strengthening the guard implies the invariant of the target (up to the 1e-13 tolerance of almost_equals), for guard rows with at least one entry; C27_empty_guard_row_refuted: an empty guard row (0 <= 5) is taken for the target invariant x <= 5 because numpy broadcasts the empty index array, so that invariant is not added."
 },
 "C63": {
  "status": "proved",
  "note": "C63_unaggregated_exact combines C19, C20 and the invariant C63_never_aggregated (CoreConc.v); C63_unaggregated_iff, C63_settings_agree and C63_unaggregated_settings are for automata without invariants, where the 1e-13 tolerance plays no role. As in C19/C20: runs that do not mark time-triggered transitions."
 },
 "C64": {
  "status": "partial",
  "note": "sympy's Polygon.encloses_point is an oracle. get_plot_data is proved completely; the click listener raises TypeError when no polygon encloses the point (C64_click_outside_refuted)."
 },
 "C65": {
  "status": "proved",
  "note": "Array-level model of lpinstance.py with GLPK's 1-based problem object (GLPK's functions as its reference manual describes them) proved to refine LpModel.v on every history of calls. Conditions on the caller: canonical scipy matrices, non-overlapping column blocks in set_reach_vars (both are needed: C65_duplicate_column_aborts). from_constraints and from_box are proved to be such histories."
 },
 "C66": {
  "status": "proved",
  "note": "C66_run_never_raises: every kind of aggregation, without deaggregation, counter-examples included. C66_deaggregation_never_raises: with deaggregation, for require_same_path and (stop_on_aggregated_error implies stop_on_concrete_error), counter-examples included and going on after concrete errors included (C66_deagg_goes_on_witness); time-triggered transitions either absent or (C66_deaggregation_time_triggered_never_raises) with running clocks and a consumed flag, the hypotheses of C19. Uses a complete solver (a failing call means an unbounded objective) and arnoldi directions of the right width. rows_comparable is only needed with guard strengthening (C27_strengthening_raises_refuted), index_ok and initial sets made by from_box/from_constraints only with make_counterexample. Boundedness is needed: C66_unbounded_set_refuted. C66_chull_never_raises: with approx_model = APPROX_CHULL, for automata without invariants and with make_counterexample = False; it then returns a result (C66_chull_returns); with make_counterexample = True (the default) an error found raises UnboundLocalError instead of being reported (C66_chull_counterexample_refuted): the columns of a hull have no name m<id>_i0. In general (C66_chull_error_never_returned): without deaggregation and with make_counterexample = True, no analysis with APPROX_CHULL that returns reports a concrete error, for every automaton and solver; the analysis with the default make_counterexample = True either equals the one with False or raises (C66_chull_same_or_raises), and raises whenever the one with False reports a concrete error (C66_chull_reported_error_raises_refuted); without aggregation every automaton that is unsafe in dense time ends in an exception (C66_chull_unsafe_always_raises_refuted). C66_lgg_never_raises, C66_lgg_returns: the same for APPROX_LGG on automata without inputs (any exponential with 1 + x <= exp x). Neither covers invariants; C66_lgg_error_never_returned, C66_lgg_same_or_raises and C66_lgg_reported_error_raises_refuted show the same loss of counter-examples there (automata without inputs). Likewise with APPROX_LGG without inputs and without aggregation every automaton unsafe in dense time ends in an exception (C66_lgg_unsafe_always_raises_refuted)."
 },
 "C67": {
  "status": "partial",
  "note": "Everything but the last sentence is proved; that one is false (C67_closed_window_refuted: closing an interactive or live window early prints 'System is safe' although an error is reachable). Drawing is an oracle that may set any objective of any state set; matplotlib is assumed to call the frame function for each yielded frame. Soundness theorems under the hypotheses of C19/C20 without time-triggered transitions; equality of results when drawing leaves objectives alone."
 },
 "C68": {
  "status": "partial",
  "note": "C68_time_on_y_refuted: a plot with time on the y axis gets all directions instead of the two horizontal ones and is refused with fewer than three angles (plotutil.py:420 tests the whole list)."
 }
}