{"id": "C01", "title": "from_box denotes exactly the box", "statement": "lputil.from_box(box, mode) either raises (some lb > ub) or returns a set representation whose current-time points are exactly the points p with lb_i <= p_i <= ub_i for every dimension i - whether or not the mode has inputs.", "quantifier": "every box (any number of dimensions, any rational bounds), every mode", "why_tests_cant": "infinitely many boxes and points; a test samples a few vertices", "anchors": ["hylaa/lputil.py:from_box", "hylaa/lputil.py:from_constraints"]}
{"id": "C02", "title": "from_constraints denotes exactly the polyhedron", "statement": "lputil.from_constraints(A, b, mode) (all rows '<=') returns a set whose current-time points are exactly {p | A p <= b}; with explicit row types and dims=k it is exactly the projection on the first k columns; it raises exactly when the rows are inconsistent in shape or A x <= b is infeasible.", "quantifier": "every matrix, right-hand side, row types, projection dimension and mode", "why_tests_cant": "set equality over an infinite domain", "anchors": ["hylaa/lputil.py:from_constraints"]}
{"id": "C03", "title": "from_zonotope denotes exactly the zonotope", "statement": "lputil.from_zonotope(c, gens, mode) returns a set whose current-time points are exactly {c + sum_i a_i g_i | -1 <= a_i <= 1}; it raises when a generator has the wrong length.", "quantifier": "every centre, every list of generators", "why_tests_cant": "set equality over an infinite domain", "anchors": ["hylaa/lputil.py:from_zonotope"]}
{"id": "C04", "title": "from_input_constraints denotes exactly B U", "statement": "lputil.from_input_constraints(B, Cu, d, mode) returns a set whose current-time points are exactly {B u | Cu u <= d}.", "quantifier": "every B matrix and input polyhedron", "why_tests_cant": "set equality over an infinite domain", "anchors": ["hylaa/lputil.py:from_input_constraints"]}
{"id": "C05", "title": "minkowski_sum is exact", "statement": "lputil.minkowski_sum([S1..Sn], mode) returns a set whose current-time points are exactly {p1+...+pn | pi in Si}.", "quantifier": "every non-empty list of well-formed sets of equal dimension", "why_tests_cant": "set equality over an infinite domain; depends on internal column layout of every operand", "anchors": ["hylaa/lputil.py:minkowski_sum"]}
{"id": "C06", "title": "bloat and scale_with_bm", "statement": "lputil.bloat(S, a) turns S into S + [-a,a]^n exactly; lputil.scale_with_bm(S, c) turns {BM x0} into {c BM x0} exactly for sets without input effects.", "quantifier": "every set, every a >= 0, every c", "why_tests_cant": "set equality over an infinite domain", "anchors": ["hylaa/lputil.py:bloat", "hylaa/lputil.py:scale_with_bm", "hylaa/lputil.py:get_basis_matrix"]}
{"id": "C07", "title": "Resets are exact", "statement": "lputil.add_reset_variables turns a set S into exactly {R x + M y | x in S, C y <= rhs} (R = identity when omitted; possibly with a different dimension), represented with an identity basis matrix and zero accumulated input, in every combination of optional arguments.", "quantifier": "every well-formed set, every R, M, C, rhs of compatible shape, predecessor/successor with or without inputs", "why_tests_cant": "set equality; bookkeeping of row/column offsets must be right for every history of previous transitions", "anchors": ["hylaa/lputil.py:add_reset_variables", "hylaa/lpinstance.py:set_reach_vars"]}
{"id": "C08", "title": "Current-time constraints and guard intersections are exact", "statement": "lputil.add_curtime_constraints intersects the set with {p | C p <= rhs}; Transition.get_guard_intersection returns None iff the set does not meet the guard, otherwise a new set equal to the intersection, and never changes the points of the set it was given.", "quantifier": "every set, every guard", "why_tests_cant": "set equality / emptiness; must hold for each LP reached along a run", "anchors": ["hylaa/lputil.py:add_curtime_constraints", "hylaa/hybrid_automaton.py:Transition.get_guard_intersection"]}
{"id": "C09", "title": "check_intersection decides intersection up to its tolerance", "statement": "lputil.check_intersection(S, c, tol): returns None iff S is empty; returns True iff S contains a point with c.p + tol <= rhs; otherwise False - and leaves the set unchanged.", "quantifier": "every set, every linear constraint, every tolerance", "why_tests_cant": "existential over a polyhedron", "anchors": ["hylaa/lputil.py:check_intersection"]}
{"id": "C10", "title": "add_init_constraint intersects at the current step", "statement": "After any number of steps in a mode, lputil.add_init_constraint(S, v, r, basis_matrix, input_effects_list) makes the set equal to {p in S | v.p <= r} although it writes the constraint on initial-time (and input) variables.", "quantifier": "every set reached after any number of steps, with or without inputs, every v and r", "why_tests_cant": "relies on an algebraic identity that must hold for every step count and matrix", "anchors": ["hylaa/lputil.py:add_init_constraint"]}
{"id": "C11", "title": "Replacing an invariant constraint never changes the result", "statement": "lputil.try_replace_init_constraint(S, row, v, r) yields exactly {p in S | v.p <= r} where S includes the old constraint, whether or not the old row was dropped as redundant.", "quantifier": "every set, every previously added invariant row, every v and r", "why_tests_cant": "redundancy elimination must be semantically invisible for all LPs", "anchors": ["hylaa/lputil.py:try_replace_init_constraint", "hylaa/lpinstance.py:get_rhs", "hylaa/lpinstance.py:get_row"]}
{"id": "C12", "title": "Invariant intersection is exact up to 1e-13", "statement": "Core's invariant intersection keeps every state of the set that satisfies all invariant conditions and keeps no state violating one of them by 1e-13 or more; it reports infeasible only if no state of the set satisfies the invariant.", "quantifier": "every state set (modes without inputs), every invariant list, any history of earlier intersections", "why_tests_cant": "loop over constraints with row replacement; all LPs", "anchors": ["hylaa/core.py:Core.intersect_invariant"]}
{"id": "C13", "title": "Template aggregation is a tight over-approximation", "statement": "lputil.aggregate(sets, directions, mode) returns a set that contains every input set and whose extent in each used template direction equals exactly the maximum/minimum over the inputs.", "quantifier": "every list of two or more sets, every direction matrix", "why_tests_cant": "containment between polyhedra in any dimension", "anchors": ["hylaa/lputil.py:aggregate", "hylaa/aggregate.py:aggregate_box_arnoldi"]}
{"id": "C14", "title": "Convex-hull aggregation contains its inputs and is exact when they are bounded", "statement": "lputil.aggregate_chull(sets, mode) contains the convex hull of its input sets, and equals it when the inputs are non-empty and bounded, for any number of inputs (recursive halving included).", "quantifier": "every non-empty list of well-formed sets", "why_tests_cant": "set equality; recursion over arbitrary list lengths", "anchors": ["hylaa/lputil.py:aggregate_chull", "hylaa/lputil.py:_aggregate_chull_recursive"]}
{"id": "C15", "title": "Feasibility, point membership and box centre", "statement": "LpInstance.is_feasible is true iff the set is non-empty; lputil.is_point_in_lpi(p, S) iff p extends to a point of S; lputil.get_box_center returns None iff empty and otherwise the centre of the tightest bounding box.", "quantifier": "every set, every point", "why_tests_cant": "quantifies over all points of a polyhedron", "anchors": ["hylaa/lpinstance.py:is_feasible", "hylaa/lputil.py:is_feasible", "hylaa/lputil.py:is_point_in_lpi", "hylaa/lputil.py:get_box_center"]}
{"id": "C16", "title": "compute_radius_inf returns the infinity-norm radius", "statement": "lputil.compute_radius_inf(S) = max over p in S of max_i |p_i|.", "quantifier": "every bounded non-empty set reached by the analysis", "why_tests_cant": "needs every layout of current-time variables, in particular after transitions", "anchors": ["hylaa/lputil.py:compute_radius_inf", "hylaa/stateset.py:StateSet.apply_approx_lgg"]}
{"id": "C17", "title": "One continuous step is the exact discrete-time image", "statement": "StateSet.step() turns the set S of mode m (basis E^k) into exactly {E x + B1 u | x in S, u in U} (no input: {E x | x in S}); step(k+j) equals j single steps; asking for a smaller step raises.", "quantifier": "every state set, any k and j, modes with/without inputs (no invariant constraint recorded when inputs exist)", "why_tests_cant": "matrix-power identity for every step count", "anchors": ["hylaa/stateset.py:StateSet.step", "hylaa/lputil.py:set_basis_matrix", "hylaa/lputil.py:add_input_effects_matrix"]}
{"id": "C18", "title": "Time elapse is independent of the call history", "statement": "TimeElapser.get_basis_matrix(k) returns E^k and E^(k-1) B1 (None for k = 0 or no inputs) whatever sequence of step numbers was requested before.", "quantifier": "every sequence of calls, every k", "why_tests_cant": "stateful cache with quick and slow paths: all call orders", "anchors": ["hylaa/time_elapse.py:TimeElapser.get_basis_matrix", "hylaa/time_elapse_expm.py:TimeElapseExpmMult.assign_basis_matrix"]}
{"id": "C19", "title": "The verdict 'safe' is sound", "statement": "If Core.run finishes and reports neither an aggregated nor a concrete error, then no discrete-time execution of the automaton within the time bound reaches an error mode - for every aggregation strategy setting.", "quantifier": "every automaton, initial sets, step count, pop order, aggregation type, stop settings (exact arithmetic, approx_model NONE, modes with inputs have no invariant; with time-triggered transitions marked: executions that take transitions inside the invariants, advancing clocks)", "why_tests_cant": "all executions of all automata; depends on the whole worklist algorithm", "anchors": ["hylaa/core.py:Core.run", "hylaa/core.py:Core.do_step_reach", "hylaa/core.py:Core.check_guards", "hylaa/aggdag.py:AggDag", "hylaa/stateset.py:StateSet.step"]}
{"id": "C20", "title": "A concrete error is real", "statement": "If Core.run sets has_concrete_error then some execution of the automaton (invariants relaxed by 1e-13) reaches the guard of a transition into an error mode.", "quantifier": "every automaton, initial sets and settings without deaggregation; with deaggregation, every automaton without invariants (for automata with invariants the execution may ignore them: the claim with them is false of the code and refuted); every run length", "why_tests_cant": "needs exactness of every set on the path", "anchors": ["hylaa/core.py:Core.error_reached", "hylaa/core.py:Core.check_guards", "hylaa/deaggregation.py:DeaggregationManager", "hylaa/aggdag.py:AggDag"]}
{"id": "C21", "title": "Deaggregation decides aggregated errors", "statement": "With deaggregation enabled (stop_on_aggregated_error off) a finished run without concrete error means no execution reaches an error mode, even if aggregated errors were seen.", "quantifier": "every automaton, every deaggregation preference, any interleaving of splitting, replay and popping", "why_tests_cant": "replay rewires a DAG of aggregated sets; all histories", "anchors": ["hylaa/deaggregation.py:DeaggregationManager", "hylaa/aggdag.py:AggDagNode.split", "hylaa/aggdag.py:AggDagNode.replay_op", "hylaa/aggstrat.py:Aggregated.get_deagg_node"]}
{"id": "C22", "title": "Counterexamples are executions", "statement": "The segments returned as result.counterexample chain into an execution: each end = E^steps start + input effects of the listed admissible inputs, the invariant holds before every step, the guard of the outgoing transition holds at the end, the next start is the reset of the end with the listed Minkowski values, the first start is an initial point, the last transition leads to an error mode, and the total number of steps is within the bound. With make_counterexample set, a concrete error always comes with such a counterexample.", "quantifier": "every concrete error of every automaton and setting without deaggregation, initial sets made by from_box, from_zonotope or from_constraints", "why_tests_cant": "depends on LP layout and column naming for every path length", "anchors": ["hylaa/result.py:make_counterexample", "hylaa/lpinstance.py:get_names"]}
{"id": "C23", "title": "Reported errors respect the time bound", "statement": "A concrete error is only reported for states whose step count since start is at most num_steps.", "quantifier": "every run", "why_tests_cant": "bookkeeping over all histories, including deaggregation replays", "anchors": ["hylaa/core.py:Core.do_step_continuous_post", "hylaa/aggdag.py:AggDagNode.replay_op_transition"]}
{"id": "C24", "title": "The analysis terminates", "statement": "With process_urgent_guards off, Core.run performs finitely many steps (no infinite loop) for every automaton, also when nodes are split and replayed by deaggregation; with process_urgent_guards on, it does so when the transitions form no cycle (and need not otherwise).", "quantifier": "every automaton, initial sets, solver answers, aggregation strategy, and setting", "why_tests_cant": "termination over all runs", "anchors": ["hylaa/core.py:Core.do_step_reach", "hylaa/core.py:Core.is_finished", "hylaa/deaggregation.py:DeaggregationManager.do_step_replay"]}
{"id": "C25", "title": "Waiting-list popping", "statement": "pop_waiting_list removes exactly the returned successors from the waiting list, returns at least one, the head has maximal score (ties: smallest mode name), all returned share mode, transition and parent when require_same_path; error modes and initial states are popped singly; nothing else is lost or duplicated.", "quantifier": "every waiting list", "why_tests_cant": "all list contents and orders", "anchors": ["hylaa/aggstrat.py:Aggregated.pop_waiting_list", "hylaa/aggstrat.py:AggregationStrategy.pop_waiting_list", "hylaa/aggdag.py:AggDag.pop_waiting_list"]}
{"id": "C26", "title": "Aggregation DAG pointers stay consistent", "statement": "At every point of every run, for each transition operation whose child is node N, N lists it among its parents; all parents of a node that is still referenced point to it; all parents of a node have the same parent node. A state set is called concrete exactly when nothing was merged on the way to it.", "quantifier": "every reachable core state (require_same_path)", "why_tests_cant": "object graph invariant over all interleavings of pops, splits and replays", "anchors": ["hylaa/aggdag.py:AggDagNode.__init__", "hylaa/aggdag.py:AggDagNode.viz", "hylaa/deaggregation.py:DeaggregationManager.do_step_replay"]}
{"id": "C27", "title": "Guard strengthening does not change reachability", "statement": "do_guard_strengthening adds target invariants to guards; the set of executions that can continue or reach an error mode is unchanged.", "quantifier": "every automaton", "why_tests_cant": "all executions", "anchors": ["hylaa/hybrid_automaton.py:HybridAutomaton.do_guard_strengthening", "hylaa/hybrid_automaton.py:LinearConstraint.almost_equals"]}
{"id": "C28", "title": "Time-triggered transitions: exactly the right ones, cut only at the guard boundary", "statement": "Exactly the transitions whose guard has a condition over clocks (variables whose derivative mentions constants only) opposite to an invariant condition of a mode whose invariant is over clocks are marked, and exactly those guard bounds are relaxed, by step/num_steps/1000. When the analysis stops a state because a time-triggered transition was taken, every dropped state satisfies the triggering guard condition within a tolerance 2*step/num_steps/1000 and lies in a set flat in that direction.", "quantifier": "every automaton, every set and transition", "why_tests_cant": "all sets", "anchors": ["hylaa/hybrid_automaton.py:was_tt_taken", "hylaa/hybrid_automaton.py:check_and_relax_time_triggered", "hylaa/hybrid_automaton.py:get_tt_vars"]}
{"id": "C29", "title": "Skipping zero-dynamics modes is sound", "statement": "With skip_zero_dynamics_modes, dropping a mode with zero dynamics after one step loses no error execution (mode without inputs).", "quantifier": "every automaton", "why_tests_cant": "all executions; requires time-compression of traces", "anchors": ["hylaa/core.py:Core.do_step_continuous_post"]}
{"id": "C30", "title": "Simulation produces executions", "statement": "Every trace produced by Core.simulate is a discrete-time execution of the automaton starting in the box; guards are only tried at step 0 if process_urgent_guards.", "quantifier": "every automaton, box, number of simulations, random values", "why_tests_cant": "all batches and interleavings of simulations", "anchors": ["hylaa/core.py:Core.do_step_sim", "hylaa/core.py:Core.sim_pop_waiting_list", "hylaa/aggstrat.py:Aggregated.get_simulation_pop_mode"]}
{"id": "C31", "title": "Symbolic dynamics extraction is correct", "statement": "make_dynamics_mat / make_reset_mat return a matrix M such that for every state vector M x equals the values of the given expressions (with constants substituted, affine variable = 1), or raise for non-linear input.", "quantifier": "every expression in the accepted grammar, every variable list, every valuation", "why_tests_cant": "all expressions and valuations", "anchors": ["hylaa/symbolic.py:extract_linear_terms", "hylaa/symbolic.py:make_dynamics_mat", "hylaa/symbolic.py:make_reset_mat"]}
{"id": "C32", "title": "Symbolic conditions are equivalent to the given inequalities", "statement": "make_condition returns (mat, rhs) such that mat x <= rhs iff all given '<='/'>=' conditions hold at x.", "quantifier": "every condition list and valuation", "why_tests_cant": "all expressions and valuations", "anchors": ["hylaa/symbolic.py:make_condition"]}
{"id": "C33", "title": "Timers are well nested", "statement": "Any well-nested sequence of Timers.tic/toc never raises, ends with an empty stack, counts each start once, and the children of a timer never account for more time than the timer itself (monotone clock); an ill-nested toc raises.", "quantifier": "every sequence of tic/toc and every monotone clock", "why_tests_cant": "all histories", "anchors": ["hylaa/timerutil.py:Timers", "hylaa/timerutil.py:TimerData"]}
{"id": "C34", "title": "Frozen objects accept no new attributes", "statement": "After freeze_attrs, setting an attribute succeeds iff it already exists; the set of attribute names never changes.", "quantifier": "every sequence of attribute assignments", "why_tests_cant": "all histories", "anchors": ["hylaa/util.py:Freezable"]}
{"id": "C35", "title": "LP column names identify mode, role and transition", "statement": "The column names produced for initial, current, input and reset variables are decoded unambiguously by the counterexample builder: mode id, transition index and role are recovered for all ids.", "quantifier": "every mode id, variable index and transition index", "why_tests_cant": "string encodings for all numbers", "anchors": ["hylaa/result.py:make_counterexample", "hylaa/lputil.py:add_reset_variables", "hylaa/lputil.py:from_constraints"]}
{"id": "C36", "title": "minimize retries are bounded and faithful", "statement": "LpInstance.minimize makes a bounded number of simplex calls, with fail_on_unsat never returns None (raises UnsatError), and returns a value only when the solver reported an optimal solution.", "quantifier": "every sequence of solver return codes", "why_tests_cant": "all solver behaviours", "anchors": ["hylaa/lpinstance.py:minimize", "hylaa/lpinstance.py:_process_simplex_result"]}
{"id": "C37", "title": "Plotted vertices are points of the set", "statement": "Every vertex returned by lpplot.get_verts for a 2-d plot is the projection of a point of the set, the polygon is closed (first = last), and time plots span exactly [min,max].", "quantifier": "every set, direction list and hull oracle", "why_tests_cant": "all sets", "anchors": ["hylaa/lpplot.py:get_verts", "hylaa/kamenev.py:get_verts"]}
{"id": "C38", "title": "Stored plot data bookkeeping", "statement": "PlotData.remove_state(state, step) removes what add_state recorded for that state and step in every subplot, and nothing else.", "quantifier": "every history of additions and removals, any number of subplots", "why_tests_cant": "all histories", "anchors": ["hylaa/result.py:PlotData"]}
{"id": "C39", "title": "num_steps covers the requested time", "statement": "HylaaSettings(step, T).num_steps is the least n with n*step >= T.", "quantifier": "every step > 0 and T >= 0", "why_tests_cant": "all numbers", "anchors": ["hylaa/settings.py:HylaaSettings.__init__"]}
{"id": "C40", "title": "Point-wise and set-wise semantics agree", "statement": "Mode.point_in_invariant, Transition.is_guard_true_for_point and apply_reset_for_point agree with the set operations: a point passes iff its singleton set survives the corresponding set operation, and resets map to the same point.", "quantifier": "every point, invariant, guard, reset", "why_tests_cant": "all points", "anchors": ["hylaa/hybrid_automaton.py:Mode.point_in_invariant", "hylaa/hybrid_automaton.py:Transition.is_guard_true_for_point", "hylaa/hybrid_automaton.py:Transition.apply_reset_for_point"]}
{"id": "C41", "title": "LP introspection round-trips", "statement": "get_full_constraints/get_types/get_rhs (and clone) reproduce the constraint system: rebuilding an LP from them gives the same solutions.", "quantifier": "every LP with '<=', '>=' and '=' rows", "why_tests_cant": "all LPs", "anchors": ["hylaa/lpinstance.py:get_full_constraints", "hylaa/lpinstance.py:get_rhs", "hylaa/lpinstance.py:get_types", "hylaa/lpinstance.py:clone"]}
{"id": "C42", "title": "Model validation", "statement": "set_invariant, set_inputs, set_guard, set_reset and check_transitions accept exactly shape-consistent and feasible data, so every automaton accepted by them satisfies the well-formedness assumed by the analysis. Mode names stay distinct.", "quantifier": "every automaton construction sequence", "why_tests_cant": "all inputs", "anchors": ["hylaa/hybrid_automaton.py:Mode.set_invariant", "hylaa/hybrid_automaton.py:Mode.set_inputs", "hylaa/hybrid_automaton.py:Transition.set_guard", "hylaa/hybrid_automaton.py:Transition.set_reset", "hylaa/hybrid_automaton.py:HybridAutomaton.check_transitions", "hylaa/hybrid_automaton.py:HybridAutomaton.new_mode"]}
{"id": "C43", "title": "Invariants with inputs are handled soundly", "statement": "In a mode with both inputs and invariants, every execution whose states satisfy the invariant remains inside the computed sets.", "quantifier": "every mode with inputs and invariants", "why_tests_cant": "all input sequences", "anchors": ["hylaa/core.py:Core.intersect_invariant", "hylaa/lputil.py:add_init_constraint", "hylaa/stateset.py:StateSet.step"]}
{"id": "C44", "title": "The time-triggered flag concerns only the state that set it", "statement": "A popped state is never discarded because another state took a time-triggered transition.", "quantifier": "every run with optimize_tt_transitions", "why_tests_cant": "flag life-cycle over all histories", "anchors": ["hylaa/core.py:Core.do_step_continuous_post", "hylaa/core.py:Core.check_guards"]}
{"id": "C45", "title": "The printed verdict is truthful", "statement": "The text 'System is safe' is only printed when no execution reaches an error mode.", "quantifier": "every automaton and setting", "why_tests_cant": "all runs", "anchors": ["hylaa/core.py:Core.run"]}
{"id": "C46", "title": "Approximation models contain the dense-time first segment", "statement": "apply_approx_chull replaces the set S by one containing S and its one-step successor set, and the later steps of the run stay sound.", "quantifier": "every state set", "why_tests_cant": "all sets and runs", "anchors": ["hylaa/stateset.py:StateSet.apply_approx_chull", "hylaa/stateset.py:StateSet.apply_approx_model", "hylaa/core.py:Core.do_step_pop"]}
{"id": "C47", "title": "Replaying a counterexample samples the right times", "statement": "replay_counterexample evaluates a segment of k steps at times 0, h, ..., k h and compares the end of the segment with the state at time k h.", "quantifier": "every segment length", "why_tests_cant": "all lengths", "anchors": ["hylaa/result.py:replay_counterexample"]}
{"id": "C48", "title": "Swig memory accounting", "statement": "SwigArray counts exactly 8 bytes per element over all allocations and raises MemoryError at the first allocation whose total exceeds the limit.", "quantifier": "every allocation sequence", "why_tests_cant": "all histories", "anchors": ["hylaa/lpinstance.py:SwigArray"]}
{"id": "C49", "title": "pt_to_plot_xy selects the requested coordinates", "statement": "pt_to_plot_xy(pt, xdim, ydim) returns (pt[xdim], pt[ydim]) for every pair of dimension numbers.", "quantifier": "every point and pair of dimensions", "why_tests_cant": "all pairs", "anchors": ["hylaa/lpplot.py:pt_to_plot_xy"]}
{"id": "C50", "title": "Aggregation step intervals are the hull of the parts", "statement": "The step interval of an aggregated state is exactly [min of lower ends, max of upper ends] of its parts, and along every run the interval of every state contains the true elapsed step count of each execution it covers.", "quantifier": "every run", "why_tests_cant": "all histories", "anchors": ["hylaa/aggregate.py:aggregate_box_arnoldi", "hylaa/stateset.py:StateSet.cur_steps_since_start"]}
{"id": "C51", "title": "get_verts_list returns a mode's polygons", "statement": "PlotData.get_verts_list(mode) returns the vertex lists of all stored sets of that mode.", "quantifier": "every stored history", "why_tests_cant": "all histories", "anchors": ["hylaa/result.py:PlotData.get_verts_list"]}
{"id": "C52", "title": "Accuracy and termination of plotted polygons", "statement": "The polygon lpplot.get_verts returns for a 2-d plot approximates the projection of the set: every facet moved outwards by max(1/1000 of the smaller bounding-box side, the tolerance of np.allclose on the coordinates) has the whole set behind it; flat sets are plotted as the segment they project to; the refinement loop ends when the solver answers with finitely many points.", "quantifier": "every bounded set, every pair of distinct dimensions, every hull and decomposition oracle meeting its contract, every number of refinement rounds", "why_tests_cant": "tests draw a few polygons near the origin; the error bound is over all directions and all sets, and the relative point comparison only fails far from the origin", "anchors": ["hylaa/lpplot.py:get_verts", "hylaa/lpplot.py:bbox_widths", "hylaa/kamenev.py:_find_init_simplex", "hylaa/kamenev.py:_v_h_rep_given_init_simplex"]}
{"id": "C53", "title": "Initial sets in an error mode", "statement": "If an initial set given to Core.run lies in an error mode (a mode without dynamics), the run reports an error.", "quantifier": "every automaton, initial sets and settings", "why_tests_cant": "Holds or fails for all automata and settings; a test shows one configuration.", "anchors": ["hylaa/core.py:250-284 do_step_pop", "hylaa/core.py:340-378 setup", "hylaa/core.py:99-127 error_reached"]}
{"id": "C54", "title": "check_trace.check simulates the inputs given", "statement": "check_trace.check called with valid arguments returns samples of the trajectory that starts at start_point and applies the given inputs one after the other, each for one step, at increasing times from 0 to the end of the last input; combining identical inputs and the number of samples do not change it; abs_error and rel_error are the distances of the last sample from end_val in the normal direction.", "quantifier": "every dynamics, input sequence, step size, sample count and exact integrator", "why_tests_cant": "the combination of inputs depends on the whole input sequence and the sampling on its length; tests run a few traces", "anchors": ["hylaa/check_trace.py:check", "hylaa/check_trace.py:sim"]}
{"id": "C55", "title": "Plot axes show every drawn point", "statement": "While a plot is drawn, the automatically chosen axis limits of a subplot always contain every point that was drawn in that subplot so far.", "quantifier": "every sequence of points, subplot count and extend_plot_range_ratio >= 0", "why_tests_cant": "the limits depend on the whole history of drawn points; a test checks one history", "anchors": ["hylaa/plotutil.py:484-552 PlotManager.update_axis_limits"]}
{"id": "C56", "title": "Mode colours", "statement": "Every mode keeps one colour for the whole run, and two different modes are drawn in different colours; the colours red, black, blue, near-white, 'white' and 'yellow' names are never used for modes, and five fixed colours are used first.", "quantifier": "every sequence of mode names, colour table, shuffle and number of modes", "why_tests_cant": "depends on the order in which modes are met and on how many there are", "anchors": ["hylaa/plotutil.py:60-136 ModeColors"]}
{"id": "C57", "title": "Drawn state sets are the current ones", "statement": "At any time, the polygons visible in a subplot (and those in result.plot_data) are those of the state sets plotted and not deleted since by deaggregation, in order; drawing and deleting never raise an exception.", "quantifier": "every sequence of plotted and deleted state sets, subplots and plot settings", "why_tests_cant": "deletion goes through indices recorded earlier, so correctness depends on the whole history", "anchors": ["hylaa/plotutil.py:319-361 DrawnShapes.add_reachable_poly", "hylaa/plotutil.py:690-727 add_reachable_poly, delete_plotted_state, add_plotted_states", "hylaa/stateset.py:193-236 set_plot_path, del_plot_path"]}
{"id": "C58", "title": "Simulation lines", "statement": "The lines drawn and stored for a batch of simulations are, one per simulation, the projected points of that simulation in order; finished batches stay unchanged.", "quantifier": "every number of batches, simulations and steps, with simulations that end early", "why_tests_cant": "the lines accumulate over all calls", "anchors": ["hylaa/plotutil.py:238-317 commit_cur_sims, set_cur_sim"]}
{"id": "C59", "title": "Aggregation direction matrices", "statement": "The direction matrix computed for Arnoldi aggregation at a point has as many rows as the system has dimensions; the rows are orthonormal, hence independent and spanning; the first is the direction of the dynamics at the point and each next one what the dynamics adds, then unit vectors. Re-orthogonalising a matrix for the target mode returns an orthonormal basis whose leading rows are the Gram-Schmidt basis of the given rows, and leaves the given matrix alone.", "quantifier": "every dimension, point, dynamics matrix, input matrix and sequence of random draws", "why_tests_cant": "the loop restarts at data-dependent places and draws random vectors; examples of a few sizes miss the object sharing between iterations", "anchors": ["hylaa/lputil.py:875-939 make_direction_matrix", "hylaa/lputil.py:941-1002 reorthogonalize_matrix", "hylaa/aggregate.py:44-55"]}
{"id": "C60", "title": "Deaggregation splits the right node", "statement": "With deaggregation on, the analysis asks for a split exactly when some node has a waiting non-concrete successor in an error mode, or two waiting non-concrete successors that left it by different transitions; the node that is split is a node with at least two aggregated sets on the lineage of such a node, and among those it is the first, the last or the largest one according to deagg_preference. With deaggregation off nothing is ever split.", "quantifier": "every state of the analysis, every waiting list, node graph and preference", "why_tests_cant": "depends on the shape of the whole waiting list and aggregation graph, which tests sample only for a few runs", "anchors": ["hylaa/aggstrat.py:Aggregated.get_deagg_node", "hylaa/aggstrat.py:get_ancestors"]}
{"id": "C61", "title": "Safe verdict in dense time with an approximation model", "statement": "With approx_model CHULL (or LGG for automata without inputs), when the analysis ends without reporting an error, no execution in dense time (sampled states joined by straight lines, transitions taken at any moment, not only at multiples of the step size) enters an error mode within the time bound. With approx_model NONE the analysis is the discrete-time one.", "quantifier": "every automaton without invariants, initial sets, dynamics, input bounds, time bound, aggregation strategy without deaggregation, every run to completion", "why_tests_cant": "ranges over a continuum of moments, inputs and executions; tests only sample some trajectories", "anchors": ["hylaa/core.py:Core.do_step_pop", "hylaa/core.py:Core.do_step_reach", "hylaa/stateset.py:StateSet.apply_approx_chull", "hylaa/settings.py:process_urgent_guards, approx_model", "hylaa/stateset.py:StateSet.apply_approx_lgg"]}
{"id": "C62", "title": "Analysing the same automaton again", "statement": "Running an analysis leaves its changes (strengthened guards, time-triggered marks, relaxed guards) in the automaton object. A second analysis of that object has the same meaning as an analysis of a fresh one: with the same settings it gives the same result, a safe verdict holds for the automaton as the user built it, a concrete error is one of that automaton.", "quantifier": "every automaton, every pair of settings, initial sets of the second analysis, every run to completion", "why_tests_cant": "tests build a fresh automaton for every run; the claim compares two analyses over all automata and settings", "anchors": ["hylaa/core.py:Core.setup_ha", "hylaa/core.py:Core.setup", "hylaa/hybrid_automaton.py:HybridAutomaton.do_guard_strengthening", "hylaa/hybrid_automaton.py:HybridAutomaton.detect_tt_transitions", "hylaa/hybrid_automaton.py:LinearConstraint.almost_equals", "hylaa/aggdag.py:AggDagNode.__init__"]}
{"id": "C63", "title": "Analysis without aggregation is exact; settings do not change verdicts", "statement": "With AggregationStrategy Unaggregated every explored state set is concrete, has_aggregated_error is never set and the verdict is exact: UNSAFE exactly when an execution of the automaton (discrete-time, within num_steps) enters an error mode (up to the 1e-13 tolerance of invariants; exactly for automata without invariants). For automata without invariants, changing the other settings (strategy without deaggregation, guard strengthening, stop flags, counterexample, zero-dynamics shortcut) never turns an error verdict into a safe one, and two unaggregated analyses print the same verdict.", "quantifier": "every automaton, initial sets, pair of settings, and every point of every run", "why_tests_cant": "needs both directions of reachability for all automata, and all pairs of settings", "anchors": ["hylaa/aggstrat.py:Unaggregated", "hylaa/core.py:Core.run", "hylaa/core.py:Core.error_reached", "hylaa/aggdag.py:AggDag.pop_waiting_list"]}
{"id": "C64", "title": "The state set at a point of a plot", "statement": "PlotData.get_plot_data(x, y) returns the first stored record (modes in order of first record, records in order of addition) with at least three distinct vertices whose polygon encloses the point, and None exactly when no stored polygon does; clicking in an interactive plot prints the state and step of such a record.", "quantifier": "every stored plot data, subplot and point, for every polygon-containment oracle", "why_tests_cant": "ranges over all stored polygons and points", "anchors": ["hylaa/result.py:PlotData.get_plot_data", "hylaa/plotutil.py:PlotManager.compute_and_animate"]}
{"id": "C65", "title": "An LpInstance is the linear program its calls describe", "statement": "After any sequence of LpInstance calls (add_cols, add_rows_*, set_constraints_csr/csc, set_reach_vars, set_basis_matrix, set_minimize_direction, set_constraint_rhs, clone) GLPK's problem object has exactly the rows, bounds, free columns and objective those calls describe; the objective is the last direction set; the getters (get_types, get_rhs, get_row, get_full_constraints, get_dense_constraints) read back what was written; no call aborts inside of GLPK, and a call refused with an exception is refused with the exception its documentation says.", "quantifier": "every finite history of calls from an empty instance, all sizes, all canonical scipy matrices, every order in which GLPK lists the entries of a row", "why_tests_cant": "stale objective coefficients, cached index rows and column overwrites depend on the whole history of calls", "anchors": ["hylaa/lpinstance.py:LpInstance"]}
{"id": "C66", "title": "The analysis does not raise on well-formed bounded models", "statement": "Core.run on an automaton with matching matrix shapes, bounded input sets and bounded, non-empty Minkowski-sum sets, started from bounded initial sets of which at least one has a point inside its mode's invariant, never raises: no assertion fails, GLPK never reports an infeasible or unbounded problem that the code does not expect, building the counterexample succeeds. Without urgent guards it returns a result after finitely many iterations. Preparing the automaton (time-triggered detection, guard strengthening, check_transitions) does not raise either.", "quantifier": "approx_model NONE: all automata, initial sets, settings (every kind of aggregation, convex hulls included; deaggregation with require_same_path and, if it stops at aggregated errors, also stopping at concrete ones (both the defaults); time-triggered transitions only with running clocks), all arnoldi directions, all numbers of iterations; approx_model CHULL: all automata without invariants, with non-empty input sets, without deaggregation, without counterexample generation", "why_tests_cant": "An assertion or a RuntimeError may need a particular interleaving of aggregation, guard intersection and invariant trimming over many steps; tests only try a few models.", "anchors": ["hylaa/core.py: Core.run, do_step, setup_ha", "hylaa/aggregate.py: AggregationManager", "hylaa/lputil.py", "hylaa/stateset.py: StateSet", "hylaa/result.py: make_counterexample"]}
{"id": "C67", "title": "Plotting, pausing and recording do not change the verdict's meaning", "statement": "Core.run may be driven without a plot, live, interactively (Next/Step buttons, pauses, skip count), or into an image or a video, with any draw stride. Whatever is drawn when and whatever is clicked: a computation that is finished and reports no error proves that no error mode is reachable; a reported concrete error is real even if the window was closed in the middle; without a window run() returns only when the computation is finished (save_video raises otherwise). All modes compute the same result as the run without a plot, and every mode can complete. Step makes exactly one step of the computation, Next between one and draw_stride, a live frame exactly draw_stride; a paused window does nothing until a button is pressed; a pause in a video lasts max(1, video_pause_frames)+1 frames. The verdict printed after a window is closed should not claim safety for an unfinished computation.", "quantifier": "all automata, initial sets, settings, plot modes, draw strides, skip counts, objectives set by drawing, sequences of frames and clicks", "why_tests_cant": "The interleaving of timer frames, pauses and clicks with the computation is unbounded, drawing changes LP objectives at arbitrary moments, and the GUI is not exercised by unit tests.", "anchors": ["hylaa/plotutil.py: PlotManager.anim_func, anim_iterator, compute_and_animate, run_to_completion, save_video, pause", "hylaa/core.py: Core.run, do_step_pop", "hylaa/deaggregation.py: DeaggregationManager.init_replay, plot_replay_deaggregated", "hylaa/stateset.py: StateSet.verts", "hylaa/lpplot.py: get_verts"]}
{"id": "C68", "title": "Plots show the projections asked for", "statement": "The analysis accepts plot settings exactly when the x and y settings are single values or lists of equal length, no plot has time on both axes and there are at least three angles (unless time is on the x axis); then there is one subplot for each requested pair, the settings object can be used for a second analysis with the same meaning, and the sets of every mode are drawn with the requested projection, for a dict with the entry of that mode's name (AssertionError if it has none). A plot over time uses the two directions along the other axis.", "quantifier": "all combinations of plot settings (time, dimension, direction, dict, lists), numbers of angles, mode names", "why_tests_cant": "The settings combine freely (lists, dicts, time, directions); tests try a few and never reuse the settings object.", "anchors": ["hylaa/plotutil.py: PlotManager.init_plot_vecs", "hylaa/stateset.py: StateSet.verts", "hylaa/settings.py: PlotSettings"]}
