# Formal model of hylaa in Coq 8.16.1 - design and trusted base

## 1. Approach

hylaa computes discrete-time reachable sets of linear hybrid automata.  Everything it does to sets is bookkeeping on linear
programs, so the model is an executable Gallina re-statement of that bookkeeping, function by function: an LP is a list of
sparse rows plus the offsets kept by `LpInstance`; each `lputil` function is a function on that record; `StateSet`,
`AggDag`, `AggDagNode`, `DeaggregationManager`, `Core` are a heap of states / transition operations / nodes with a step
function that follows the Python methods branch by branch.  Exceptions are values of type `res` (`Err EAssert`, `EIndex`, ...).
Each model definition cites the file and lines it models.  Properties are stated against small separate specifications:

* `LpSpec.v`, `SetSpec.v` - what set an LP denotes (`in_lp`), polyhedra, boxes, zonotopes, sums, hulls, images;
* `HybridSpec.v` - executions of a hybrid automaton (`reach`, `error_reachable`), admissible inputs, well-formed automata;
* `ApiSpec.v`, `StateSpec.v`, `CoreSpec.v` - the objects a user can obtain by calling the public functions;
* `FlowSpec.v`, `TimerSpec.v`, `SimSpec.v`, `CexSpec.v` - specifications used by single properties.

Property theorems are the ones named `Cnn_...` in the `Prop_*.v` files; next to them `Cnn_..._witness` examples give concrete
non-trivial cases meeting the hypotheses (computed with a verified exact LP solver, `Solver.v`).  Names ending in `_partial`
prove part of a property; names ending in `_refuted` prove that the property, as stated in properties.jsonl, is false of the
code in the shown case (a bug found in the code under study).

## 2. Trusted base

* Coq's kernel (8.16.1) and its VM (`vm_compute` in witnesses and refutations); `coqchk` accepts all files.
* `Print Assumptions` of every theorem listed in MANIFEST.json except those of C59: **"Closed under the global context"**
  (reproduce with `tools/assumptions.py` after a build): no axiom at all.  The C59 theorems (`DirMat.v`, vectors with square roots) use the
  standard library's real numbers and rest on its three axioms `ClassicalDedekindReals.sig_not_dec`,
  `ClassicalDedekindReals.sig_forall_dec`, `FunctionalExtensionality.functional_extensionality_dep`.  No axiom of our own is used.  (vcheck lists the
  declarations of `Coq.ssr.ssrunder`, a library file loaded by a standard-library `Require`; no theorem depends on them.)
* That the Gallina definitions say what the Python code does.  The model was written from the text of /repo; the code was not run.
  The transcription was tested by mutation (section 5), not proved.
* The English reading of the specifications above.

What is idealised (and so outside the theorems):

| in the code | in the model |
|---|---|
| float arithmetic, tolerances | exact rationals `Q`; explicit tolerances (1e-13, 1e-7, 1e-6, 1e-12 ...) are kept.  C39_binary64_refuted uses the binary64 of the standard library (SpecFloat) |
| GLPK simplex | an arbitrary function `solver` with contract `solver_ok`: optimal answers are feasible and minimal, "infeasible" is right; it may also answer "unbounded / error", which raises.  Retry logic around it is modelled (`Minimize.v`, C36) |
| scipy `expm` | a mode carries matrices `m_bm k`, `m_ie k`; contract: `m_bm (k+1) = m_bm 1 . m_bm k` etc. (part of `wf_ha`); the caching object that produces them is modelled in `TimeElapse.v` and C18 shows it meets that contract |
| Arnoldi / random directions in aggregation | in the reachability core an arbitrary function argument `arnoldi` (the soundness theorems hold for any directions); the functions that produce them are modelled separately over the reals, random draws an argument (`DirMat.v`, C59) |
| `math.exp` in the LGG model | an arbitrary function argument |
| `odeint` in check_trace | an arbitrary function argument |
| random sample points in simulation | arguments |
| sympy `parse_expr`/`subs` | an oracle from text to an expression tree |
| SVD rank / qhull in plotting | oracles `orth`, `hull`; contracts orth_ok, hull_ok in Prop_Plot.v, met by exact implementations in Ex_Plot.v (C37 needs no contract) |
| Python object identity and mutation | explicit heap with indices (`CoreModel.v`) or returned values (`lputil`) |
| time.perf_counter | argument |
| matplotlib, printing, graphviz | not modelled (the printed verdict and the stored plot data are) |

## 3. What is modelled

| /repo/hylaa file | model | not modelled |
|---|---|---|
| lpinstance.py | LpModel.v (rows, columns, offsets, csr/csc setters, introspection), Glpk.v (the same calls on GLPK's numbered rows and columns, proved equivalent: C65), Minimize.v (minimize, retries, timers) | printing (`__str__`), `glpk` handle lifetime except SwigArray counting (Util.v) |
| lputil.py | LpUtil.v, Approx.v, Lgg.v | – |
| hybrid_automaton.py | Automaton.v | `was_tt_taken` printing |
| stateset.py | StateSet.v, Approx.v (approximation models), Util.v (plot verts cache) | `__str__`, matplotlib paths |
| time_elapse.py, time_elapse_expm.py | TimeElapse.v | - |
| core.py | CoreModel.v (run loop, setup, guards, pops, results), Sim.v (simulation), CoreModel's make_counterexample, CoreApprox.v (the run with an approximation model) | printing other than the verdict, plot calls, lgg_beta inside the loop |
| aggdag.py, deaggregation.py, aggstrat.py | CoreModel.v | viz |
| symbolic.py | Symbolic.v | sympy itself |
| check_trace.py | CheckTrace.v (check, sim, make_der_func) | plot (not runnable in Python 3: xrange), printing |
| result.py replay_counterexample | Replay.v | - |
| timerutil.py | Timers.v | - |
| util.py, settings.py, result.py, plotutil.py (PlotData, pt_to_plot_xy) | Util.v, Replay.v | drawing |
| plotutil.py (update_axis_limits, ModeColors, DrawnShapes polygons / markers / simulation lines, delete_plotted_state, add_plotted_states), stateset.py (set_plot_path, del_plot_path) | PlotMan.v | matplotlib objects (only the data passed to them), highlighting, animation, user key events |
| plotutil.py (anim_func, anim_iterator, compute_and_animate, run_to_completion, save_video, pause, on_click) | Animate.v, Click.v | matplotlib's animation and writer (a frame function called per yielded frame), the "save aggdag" button |
| lpplot.py, kamenev.py | Plot.v (C37, C52), whole of get_verts and kamenev | drawing |
| guard_opt_data.py, simulation.py, predicates | not modelled: dead code not reachable from core.py at this commit | |

## 4. Properties

`status` is that of MANIFEST.json; the note there gives the hypotheses of each theorem.

| id | model | method | result |
|---|---|---|---|
| C01-C08 | LpUtil.v constructors and set operations | set equality from row semantics; structural invariant `wf_lp` | proved |
| C09-C12 | check_intersection, add_init_constraint, try_replace_init_constraint, intersect_invariant | `wf_lp` + solver contract | proved |
| C13, C14 | aggregate, aggregate_chull | support values; disjunctive (homogenised) encoding; recursion on fuel, fuel irrelevance proved | proved |
| C15, C16 | feasibility, membership, box centre, radius | solver contract | C15 proved, C16 partial (wrong column read after a transition) |
| C17, C18 | StateSet.step, TimeElapse | matrix powers, induction over call histories | proved; LGG mode refuted |
| C19, C20, C21 | whole analysis (CoreModel.v) | inductive invariants over all heap states reached (`base`, `gi`, ...), executions of HybridSpec.v | proved under hypotheses that exclude the bugs C29, C43, C44; with time-triggered transitions (CoreTT.v, Prop_TT.v): discarded states are dead ends when the clocks advance; C20 with deaggregation (CoreSubD.v: every concrete set consists of points that executions of the automaton without its invariants reach, each replayed step matches its recorded operation; Prop_Core7.v) and its refutation with invariants (Ex_Deagg.v) |
| C22, C35 | counterexamples, column names | string codec; invariant relating LP columns to the path of transitions | proved |
| C23 | time bound of errors | as C20 | partial (false with deaggregation) |
| C25, C26, C50 | waiting list, DAG pointers, step intervals | heap invariants | proved |
| C24 | termination | explicit bound without deaggregation; with deaggregation a lexicographic measure by depth in the DAG (per depth: waiting and pending operations, remaining splits and replays; then remaining replay positions and steps); urgent cycles: no finished analysis covers an endless chain of urgent transitions | proved; refuted for urgent cycles |
| C27, C28, C29, C40, C42 | guard strengthening, time-triggered cut, zero dynamics, points vs sets, validation | execution transformation, case analysis | proved, with refuted corners (C27_strengthening_raises_refuted, C27_empty_guard_row_refuted) |
| C30 | do_step_sim | invariant on stored lines | partial (bugs in batches) |
| C31, C32 | symbolic.py | induction on expressions | proved, relative to sympy |
| C33, C34, C36, C39, C41, C48 | timers, Freezable, minimize, num_steps, introspection, SwigArray | refinement of a call log; histories | proved |
| C37, C52 | lpplot.get_verts, kamenev.get_verts | support-point invariant; facet coverage invariant of the refinement loop; measure on unused support points | proved (C37), partial (C52: refuted corners) |
| C38, C47, C49, C51 | PlotData, replay, plot coordinates | computation | partial (bugs) |
| C43, C45 | invariants with inputs, printed verdict | conditional theorem + refutation by a computed run | partial |
| C44 | the flag took_tt_transition (CoreFlag.v, Prop_Flag.v) | frame invariant over all reached states: only check_guards of the current state raises the flag; refutation of the stale flag, of the dropped boundary step and of standing clocks by computed runs | partial |
| C53 | setup, do_step_pop (CoreModel.v) | invariant "all waiting sets are in error modes" over the run; refuted for all inputs | partial |
| C54 | check_trace.check (CheckTrace.v), odeint an oracle | loop invariant: samples of the held-input trajectory; spec `held` | partial (refuted for the default sample count with numpy >= 1.18) |
| C55 | update_axis_limits (PlotMan.v) | invariant over the calls: limits = bounding box, shown region contains it unless flat | partial (refuted for constant x or y) |
| C56 | init_colors, get_edge_face_colors (PlotMan.v); matplotlib's colour table and random.shuffle are arguments (the shuffle a permutation) | table invariant, Permutation | partial (refuted for more modes than colours, synonyms) |
| C57 | DrawnShapes polygons and markers, path references of state sets (PlotMan.v) | ghost list of all pieces ever drawn; spec `should` | partial (refuted for markers, mode names, PLOT_NONE) |
| C58 | set_cur_sim, commit_cur_sims (PlotMan.v) | induction over calls; spec `column` | proved |
| C59 | make_direction_matrix, reorthogonalize_matrix (DirMat.v), array aliasing explicit | invariant: rows orthonormal; completeness by summing squared residuals of the unit vectors; spec `orthonormal`, `spanning` | partial (refuted: reorthogonalize_matrix zeroes its last row) |
| C60 | get_deagg_node, get_ancestors, the stable sort by size (CoreModel.v) | scan invariant over the waiting list; spec `pending`, `ambiguous`, `lineage`, `preferred` written from the English (Prop_Deagg.v) | proved |
| C61 | do_step_pop with apply_approx_model, do_step, run (CoreApprox.v) | invariant (ApproxInv.v): entries removed from the waiting list and not yet finished, parametrised by a relation "also treated as entered at"; spec `dense` (real entry times, sampled trajectory joined by lines) in Prop_Dense.v; APPROX_LGG without inputs in Prop_LggRun.v | partial (no invariants, no deaggregation: refuted with it, as are concrete errors, Prop_Dense2.v; refuted with the default process_urgent_guards = False: the first segment after an entry is never checked); without aggregation every state stays concrete (ConcA.v) |
| C62 | setup_ha applied to its own result; run on the automaton (and StateSets) an earlier run left (Prop_Rerun.v, Ex_Rerun.v) | strengthening twice = once (almost_equals is reflexive); C19 / C20 of the second run transported back through the first setup_ha | partial (refuted with time-triggered guards, reused StateSets; may raise) |
| C63 | the Unaggregated strategy in run / do_step (CoreConc.v, Prop_Conc.v) | invariant over reached states: all state sets concrete, no aggregated error, no replay; with C19 and C20 both directions; relaxed = exact reachability without invariants | proved |
| C64 | result.get_plot_data, plotutil on_click; sympy polygon test as an oracle (Click.v, Prop_Click.v) | induction over the records | partial (a click outside every polygon raises) |
| C65 | every mutator and getter of LpInstance at array level, over GLPK's problem object as its manual describes it (Glpk.v, GlpkSpec.v, GlpkFacts*.v, Prop_Glpk.v) | simulation relation with LpModel.v, one lemma per call, induction over histories | proved |
| C66 | the whole analysis (CoreModel.v), with every assertion and every solver failure as an error | boundedness of every LP column is an invariant of all set operations (Bounded*.v), so the solver cannot report an unbounded problem; totality lemma per operation (CoreTotal*.v; ChullTotal.v: the hull of bounded sets is bounded by scaling; LggTotal.v: bloated sets are bounded), induction over the run; counterexamples through the invariants of C22; deaggregation: the DAG shape invariants of CoreShape*.v (the set of a transition was made by a state with matching steps, an operation's parents and children exist) and the loop invariants of CoreReplay.v give totality of split_node, finish_map and the replay loop (CoreTotalD*.v); with deaggregation and counterexamples, an invariant on the operations' column names kept by splitting and replaying (CexD*.v) gives totality of make_counterexample; with the convex-hull model (CoreTotalA.v, Prop_TotalA.v) the same induction with the hull's totality at every pop | proved (convex-hull model: only without invariants and without counterexamples, which are refuted; with deaggregation: require_same_path, stop_on_aggregated_error only together with stop_on_concrete_error, time-triggered transitions with running clocks; unbounded sets refuted); with APPROX_CHULL, the invariant that no column of the current state starts a counter-example segment (CoreNoCex.v, CoreNoCex2.v) |
| C67 | PlotManager's animation loop, pauses, buttons, video and image (Animate.v); drawing = any change of LP objectives (CorePaint.v, AnimFacts.v, Prop_Anim.v) | every plotted run is a sequence of do_step calls with objective changes in between; the invariants of C19/C20 do not see objectives; step counting per frame | partial (closing a window early prints "System is safe": refuted) |
| C68 | PlotManager.init_plot_vecs and the choice of projections in StateSet.verts (PlotVecs.v); the (cos, sin) list is an argument | induction over the list of plots; the set of accepted settings is characterised exactly | partial: time on the y axis refuted |
| C46 | approximation models | convexity of executions and of the hull encoding; later LGG steps as steps of an automaton with bloating inputs | partial (bugs) |

## 5. Testing the theorems against wrong programs

`tools/mutate.py mutants.json` applies one textual edit to a scratch copy of the model, rebuilds, and records in seeded/LOG.jsonl
which theorems fail.  A mutant that survives although its claim is false means a theorem is too weak and is tightened.
