# Formal model of mpc-walkgen in Coq

## Approach

* The C++ source in `/repo` is transcribed function by function into small total Gallina functions in
  the `rocq/theories/*Model.v` files, which contain no proofs. Every definition there has a comment citing the
  file and lines it models, and says where it simplifies.
* Scalars. The C++ is templated on `Scalar` (float or double). The model is written once over a class of
  scalar operations (`Scalar.v`): + - * /, boolean comparisons, truncation to an integer. It is instantiated
  with Coq's reals for the theorems and with exact rationals for running examples.
* Failure. A failed `assert` and a failed Eigen size assertion give the outcome `Abort`; out-of-range reads and
  access to an empty container give `UB`; a division by zero or the inverse of a singular matrix gives `Nan`;
  loops without a bound take fuel and give `OutOfFuel` (never a normal value).
* External solver. qpOASES is an oracle: theorems quantify over everything it can return. Where optimality
  matters, "it returns a minimiser of the problem it is given if there is one" is an explicit premise.
* Properties are stated against small independent specifications (`*Spec.v` and the statements themselves):
  running the integrator step by step, being on the inner side of the edges, sums of squares, runs of an automaton.
* Histories. A "reachable" object is one obtained from its constructor by any finite list of public calls; the
  inductive types of calls are in the model or spec files. Theorems about them are proved by invariants.
* Findings. Where the code violates the property one expects, the property in `properties.jsonl` states exactly
  what does hold and says what is violated; the theorem with suffix `_refuted` is a concrete violating input or
  run, and the other theorems of the property prove the part that holds. No theorem is partial.
* Beside each group of theorems an `Example Cxx_case...` (or the `_refuted` witness) shows a concrete state that
  meets the hypotheses.

## What is modelled

| Model file | Source modelled |
|---|---|
| `LinAlg.v`, `Scalar.v` | the part of Eigen used: vectors and matrices as functions with sizes, sums, products, blocks |
| `ToolsModel.v` | `src/tools.cpp`, `mpc-walkgen/tools.h`, `src/lineardynamic.cpp` |
| `InterpModel.v` | `src/interpolator.cpp` |
| `PolygonModel.v` | `src/convexpolygon.cpp` |
| `QPModel.v` | `qpsolver/mpc-walkgen/qpsolver.h`, `qpsolver/src/qpsolver_qpoases.hxx` |
| `NoDynModel.v`, `LipModel.v`, `BaseModel.v`, `FootModel.v` | `src/model/*.cpp` and their headers |
| `TrajModel.v` | `src/trajectory_walkgen.cpp`, `src/function/trajectory_*.cpp` |
| `SupModel.v` | `src/humanoid_feet_supervisor.cpp` |
| `HumModel.v` | `src/humanoid_walkgen.cpp`, `src/function/humanoid_*.cpp` |
| `RoundModel.v` | float and double as scalars: the operators with rounding |
| `ZebModel.v` | `src/zebulon_walkgen.cpp`, `src/function/zebulon_*.cpp` |

Specification files: `ToolsSpec.v`, `TrajSpec.v`, `RoundSpec.v`, `ModelsSpec.v`, `SupSpec.v`, `HumSpec.v`, `HumRunSpec.v`, `ZebSpec.v`.
Proof files: `*Facts.v`, `*Alg.v`, `*Obj.v`, `*Con.v`, `*Prob.v`, ... ; theorems: `Prop*.v`.

## What is not modelled

* Rounding is modelled for the feet supervisor (C66) and for the integration of the states (C73); the other theorems are about exact arithmetic.
  Every operation is rounded to one format, whereas `std::pow` is evaluated in double also for float.
* Overflow, infinities and NaN of float and double; `x==x` assertions are omitted, except where a
  division by zero is certain (outcome `Nan`).
* qpOASES itself (oracle); its iteration counts and CPU time; the text it prints.
* `inverseSVD` (`tools.h` 76-92; called nowhere); the float and double solver classes and `qpsolverfactory.cpp` (they
  only select a template instance).
* Numerical error of Eigen's LU inverse: `inverseLU` is the exact inverse followed by the code's truncation.
* `setAngularVelRefInWorldFrame` stores a value that nothing reads; the hip yaw bound setters of the foot model store
  bounds that nothing reads. They are left out.
* Getters that return a field, destructors, copies, `api.h`, `macro.h`, CMake files, and the programs under `test/`.
* Aliasing: the objective and constraint objects hold references to the models; the model passes the current
  value instead. Fields that an object copies or caches are explicit fields of the model.
* Threads (the code has none).


## Properties: what is modelled and how each is proved

* **C01 Preview matrices agree with the integrator.** Model: `ToolsModel.v`: every `compute*Dynamic` of `tools.cpp` and `LinearDynamic`, entry by entry. Proof: Spec (`ToolsSpec.v`) = running the integrator step by step. Induction on the sample index, closed-form sums. Theorems in `PropTools.v`.
* **C02 CoP preview obeys the (tilted gravity) pendulum equation.** Model: `ToolsModel.v`: `computeCopDynamic`. Proof: CoP of the simulated centre of mass, via the previews of C01. Theorems in `PropTools.v`.
* **C03 Second order preview agrees with the second order integrator.** Model: `ToolsModel.v`: the order 2 dynamics. Proof: As C01 with the two-state integrator. Theorems in `PropTools.v`.
* **C04 State update is the exact flow of a triple integrator.** Model: `ToolsModel.v`: `updateState` / the one-step matrices. Proof: `ring` for the flow law, `derivable_pt_lim` for the differential equation. Theorems in `PropTools.v`.
* **C05 Preview is causal.** Model: `ToolsModel.v`. Proof: Lower triangular shape of the input matrices. Theorems in `PropTools.v`.
* **C06 Hand written inverses are exact.** Model: `ToolsModel.v`: `Uinv` written by hand in `tools.cpp`. Proof: Telescoping sums for every N; witness for S<>T. Theorems in `PropTools.v`.
* **C07 Any position (velocity, CoP) sequence has exactly one jerk sequence.** Model: `ToolsModel.v`. Proof: Triangular solve by induction on N (`TriFacts.v`); kernel vector when the CoP matrix is singular. Theorems in `PropTools.v`.
* **C08 Stored inverse of an LU-inverted preview really is the inverse.** Model: `ToolsModel.v`: `inverseLU` = the exact inverse (Gauss on triangular matrices) with entries below epsilon dropped. Proof: Exact when nothing is dropped; witness otherwise. Theorems in `PropTools.v`.
* **C09 Spline meets the requested end states.** Model: `InterpModel.v`: the 9x9 matrix and the evaluation of `interpolator.cpp`. Proof: `field`. Theorems in `PropInterp.v`.
* **C10 Spline is twice continuously differentiable at its junctions.** Model: `InterpModel.v`. Proof: Derivatives of the pieces, equality at the knots (Coquelicot is not needed: `derivable_pt_lim`). Theorems in `PropInterp.v`.
* **C11 Spline coefficients are the only ones possible.** Model: `InterpModel.v`. Proof: The 9 linear equations determine the coefficients. Theorems in `PropInterp.v`.
* **C12 Flying foot trajectory starts where the foot is and lands on target.** Model: `InterpModel.v`, `FootModel.v`. Proof: Induction over the list of re-planning commands. Theorems in `PropInterp.v`.
* **C13 Polygon constraints describe exactly the convex region.** Model: `PolygonModel.v`: the constraint extraction of `ConvexPolygon`. Proof: Induction over the edges; witness for a nearly vertical edge. Theorems in `PropPolygon.v`.
* **C14 Hull vertices are input points, starting at the lowest leftmost one.** Model: `PolygonModel.v`: the two selection loops and the main loop of `extractVertices`. Proof: Loop invariants (`PolygonFacts.v`). Theorems in `PropPolygon.v`.
* **C15 Hull extraction is memory safe and terminates.** Model: `PolygonModel.v`: reads outside a vector are `UB`, the assertion is `Abort`, the release build takes fuel. Proof: Invariant on the loop state for every fuel; witnesses. Theorems in `PropPolygon.v`.
* **C16 Normalisation factor is at least one and finite.** Model: `QPModel.v`: `getNormalizationFactor`; `ZebModel.v`: Zebulon's factors. Proof: Induction over rows and columns. Theorems in `PropQP.v`, `PropZebSolve.v`.
* **C17 Normalising a QP does not change its solutions.** Model: `QPModel.v`: `normalizeMatrices`. Proof: Positive factors preserve bounds and the order of costs. Theorems in `PropQP.v`, `PropZebSolve.v`.
* **C18 Solver failure is reported to the caller.** Model: `QPModel.v`: state machine of `QPOasesSolver`, answer of qpOASES arbitrary. Proof: Case analysis; witness. Theorems in `PropQP.v`.
* **C19 Warm starting never uses stale matrices.** Model: `QPModel.v`, `TrajModel.v`, `ZebModel.v`. Proof: Invariant over all histories: matrices remembered = matrices posed. Theorems in `PropQP.v`, `PropTraj.v`, `PropZebSolve.v`.
* **C20 Trajectory QP objective is the documented cost.** Model: `TrajModel.v`: objectives and assembly. Proof: Quadratic expansion against the cost of the simulated motion (`TrajSpec.v`). Theorems in `PropTraj.v`.
* **C21 Trajectory QP constraints are exactly the motion limits.** Model: `TrajModel.v`: `MotionConstraint`. Proof: Row by row equivalence. Theorems in `PropTraj.v`.
* **C22 One trajectory solve yields the optimal admissible motion, independently of the previous guess.** Model: `TrajModel.v`: `solve`. Proof: C20 + C21; existence of a minimiser of a convex QP (`QPExist.v`); strict convexity for uniqueness. Theorems in `PropTraj.v`.
* **C23 When the trajectory generator can be solved.** Model: `TrajModel.v`: all setters. Proof: Invariant over histories, exact condition for `solve` to return. Theorems in `PropTraj.v`.
* **C24 Model setters keep the preview dynamics up to date.** Model: `LipModel.v`, `BaseModel.v`, `NoDynModel.v`: the stored previews are fields that only the code's own calls refresh. Proof: Invariant over histories. Theorems in `PropModels.v`.
* **C25 Setter guards accept exactly the meaningful parameters.** Model: Same files: every `assert` of every setter. Proof: Invariant over histories, iff for each setter, witnesses. Theorems in `PropModels.v`.
* **C26 Feedback index stays in range.** Model: `SupModel.v`: times; `HumModel.v`: index of the feedback dynamic. Proof: Integer arithmetic on the schedule (`SupTime.v`, `SupWalk.v`). Theorems in `PropSup.v`, `PropSupCases.v`.
* **C27 Gait alternates feet.** Model: `SupModel.v`: the whole `HumanoidFeetSupervisor`. Proof: Invariant over all public calls. Theorems in `PropGait.v`.
* **C28 Stopping request ends in double support.** Model: `SupModel.v`. Proof: Invariant, and a decreasing measure for the deadline. Theorems in `PropGait.v`.
* **C29 Every preview sample belongs to exactly one foot step.** Model: `SupModel.v`: the selection matrices. Proof: Loop invariant on the timeline walk. Theorems in `PropSup.v`.
* **C30 Timeline covers the preview horizon.** Model: `SupModel.v`. Proof: Sums of phase durations along the timeline. Theorems in `PropSup.v`.
* **C31 A walk never aborts nor reads an empty timeline.** Model: `SupModel.v`: reading an empty timeline is `UB`. Proof: Invariant of configured walks (`SupWalk.v`), unbounded number of cycles; witness. Theorems in `PropSup.v`, `PropSupCases.v`.
* **C32 Decision vector size follows the plan.** Model: `SupModel.v`: enlarging and shortening the decision vector. Proof: Invariant; witness. Theorems in `PropSup.v`, `PropSupCases.v`.
* **C33 Planned steps are kept, and added steps are reachable.** Model: `SupModel.v`, `PolygonModel.v`. Proof: Entry by entry statement; barycentre in the hull. Theorems in `PropSteps.v`, `PropSupCases.v`.
* **C34 The support foot never moves.** Model: `SupModel.v`: `updateFeetStates`. Proof: Frame property of every call. Theorems in `PropSteps.v`.
* **C35 Sample weights cover one period.** Model: `SupModel.v`: sample weights. Proof: Direct for all N>1; N=1 refuted. Theorems in `PropSup.v`, `PropSupCases.v`.
* **C36 Humanoid CoP constraints keep the CoP in the support polygon.** Model: `HumModel.v`: `HumanoidCopConstraint` and the assembly. Proof: Row by row equivalence (`HumProb.v`), then C13, C39 and C54. Theorems in `PropHum.v`.
* **C37 Humanoid foot constraints keep steps reachable.** Model: `HumModel.v`: `HumanoidFootConstraint`. Proof: Row by row equivalence; witness for the stale box. Theorems in `PropHum.v`, `PropHumCases.v`.
* **C38 Humanoid objectives are the documented costs.** Model: `HumModel.v`: the three objectives. Proof: Quadratic expansion against the cost of the simulated motion (`HumObj.v`). Theorems in `PropHum.v`.
* **C39 CoP to jerk conversion reproduces the decision variables.** Model: `HumModel.v`: CoP to jerk conversion in `solve`. Proof: Exact inverses, uniqueness from C07. Theorems in `PropHum.v`, `PropHumSolve.v`.
* **C40 Pre-built QP lookup is injective and in range.** Model: `HumModel.v`: tables of matrices and solvers. Proof: Arithmetic on indices; invariants over histories; runs. Theorems in `PropHumCases.v`, `PropHumSolve.v`.
* **C41 Zebulon QP objective is the documented cost.** Model: `ZebModel.v`: the seven objectives and the assembly. Proof: Quadratic expansion against the simulated cost (`ZebObj.v`, `ZebTilt.v`, `ZebProb.v`). Theorems in `PropZeb.v`.
* **C42 The Zebulon feasible set is exactly the enabled constraints.** Model: `ZebModel.v`: the four constraints. Proof: Row by row equivalence (`ZebCon.v`). Theorems in `PropZeb.v`.
* **C43 Which region the Zebulon CoP and CoM constraints enforce.** Model: `ZebModel.v`: CoP and CoM constraints. Proof: C13 on the reflected point; witness. Theorems in `PropZeb.v`, `PropZebCases.v`.
* **C44 Zebulon tilt motion constraint fixes motion along the heading.** Model: `ZebModel.v`: tilt motion constraint. Proof: Row by row; (cos, sin) never both zero. Theorems in `PropZeb.v`.
* **C45 Which equation the previewed tilt satisfies.** Model: `ZebModel.v`: `computeTiltDynamic`. Proof: Regular linear system per axis (`ZebTilt.v`); witness. Theorems in `PropZeb.v`, `PropZebCases.v`.
* **C46 Zebulon reference CoP against its preview.** Model: `ZebModel.v`: reference CoP. Proof: Difference formula; witness. Theorems in `PropZeb.v`, `PropZebCases.v`.
* **C47 When the Zebulon problem is that of the current parameters.** Model: `ZebModel.v`: each objective keeps the values computed at its last refresh. Proof: Invariant over histories with two ghost facts; three witnesses. Theorems in `PropZebCalls.v`.
* **C48 Which masses Zebulon accepts.** Model: `ZebModel.v`, `LipModel.v`, `BaseModel.v`. Proof: Exact conditions. Theorems in `PropZebCalls.v`.
* **C49 Which weights are accepted.** Model: The three `setWeightings`. Proof: Exact conditions. Theorems in `PropWeights.v`.
* **C50 Which contact flags are readable.** Model: `BaseModel.v`: contact flags. Proof: Exact behaviour after any history. Theorems in `PropModels.v`.
* **C51 A foot moved from rest to rest never overshoots.** Model: `InterpModel.v`. Proof: Sign of the derivative on each piece. Theorems in `PropInterp.v`.
* **C52 The polygon built from points is their convex hull.** Model: `PolygonModel.v`: points to constraints. Proof: The gift wrapping invariant gives a convex polygon (`HullFacts.v`), then C13. Theorems in `PropPolygon.v`.
* **C53 The flying foot lands on the planned step.** Model: `SupModel.v`, `FootModel.v`, `InterpModel.v`. Proof: Schedule of a step in feedback periods, last update has the remaining time. Theorems in `PropSteps.v`, `PropSupCases.v`.
* **C54 The double support polygon is the hull of both feet.** Model: `SupModel.v`: support polygons; `PolygonModel.v`. Proof: C52 on the union of the two vertex lists. Theorems in `PropSteps.v`.
* **C55 A humanoid generator that is set up keeps walking.** Model: `HumModel.v`: whole runs of the generator. Proof: Inductive invariant (`HumRun.v`, spec in `HumRunSpec.v`) combining C26, C31, C32, C36, C40. Theorems in `PropHumRun.v`.
* **C56 The contact point of the tilt must be set before use.** Model: `ZebModel.v`: the uninitialised contact point is a parameter of the constructor. Proof: Two values, two problems; independence once set. Theorems in `PropZebCalls.v`.
* **C57 Exactly when each Zebulon call returns.** Model: `ZebModel.v`: all `assert`s and Eigen size checks. Proof: Iff for each call in every reachable state (`ZebCalls.v`, `ZebLive.v`). Theorems in `PropZebCalls.v`.
* **C58 One Zebulon solve yields an optimal admissible motion.** Model: `ZebModel.v`: `solve`. Proof: As C22. Theorems in `PropZebSolve.v`.
* **C59 What each Zebulon call changes.** Model: `ZebModel.v`. Proof: Frame property of each call on the record of visible values (`ZebView.v`). Theorems in `PropZebCalls.v`.
* **C60 The feet move smoothly.** Model: `SupModel.v`: `updateFeetStates` over a walk. Proof: Pieces of cubics glued at feedback times (`PropSmooth.v`). Theorems in `PropSmooth.v`.
* **C61 Which calls the feet supervisor accepts and what each changes.** Model: `SupModel.v`: all calls. Proof: Iff and frame property for each call in every reachable state, on the record `sview`. Theorems in `PropSupCalls.v`.
* **C62 What the queries of the feet supervisor answer.** Model: `SupModel.v`: the queries. Proof: Closed form of the timeline after an update. Theorems in `PropSupCalls.v`.
* **C63 Which calls the humanoid walk generator accepts and what each changes.** Model: `HumModel.v`: all calls. Proof: Every call is a sequence of calls of the two models; iff and frame property on the record `hview`. Theorems in `PropHumCalls.v`.
* **C64 What a solve of the humanoid walk generator starts from, and that it does not matter.** Model: `HumModel.v`: `h_prepare`, `h_problem`, `h_convert`. Proof: Entries written by the first fill; strict convexity of the motion cost in the jerks; shifting a minimiser. Theorems in `PropHumStart.v`.
* **C65 Which calls a foot accepts, what each changes, and the curve of an update.** Model: `FootModel.v`: `fstep` and the functions it calls, `InterpModel.v`. Proof: Case analysis on the call; the derivatives of two functions equal on an interval are equal, so the curve satisfies the equations of C11, which have one solution. Theorems in `PropFoot.v`.
* **C66 Rounding does not change the schedule of the steps.** Model: `SupModel.v` over the scalars of `RoundModel.v`: every operation is the exact one followed by a rounding function. Proof: Simulation between the rounded and the exact supervisor: every timer is a multiple of half a feedback period with an error that the rest of the phase can absorb, so every comparison with the tolerance has the same outcome; Flocq for the IEEE 754 error bound. The generator (`PropRoundHum.v`) reaches its supervisor only through these calls, with vectors of the same size. Theorems in `PropRound.v`, `PropRoundHum.v`.
* **C67 An exact solve applies the best motion.** Model: `HumModel.v`, whole calls of solve; the competing motions are those of `HumOptSpec.v` (`best_motion`). Proof: The minimisers of the posed problem are exactly the best motions (C36, C38, C39), a minimiser exists (`QPExist.v`), strict convexity in jerks and centres of pressure gives uniqueness, and every planned step is under the robot at some sample, so it is determined too; the invariant of C55 carries this along walks. Theorems in `PropHumOpt.v`.
* **C68 The centre of pressure is under the feet, and steps land within reach.** Model: `HumModel.v`, whole walks; where the feet, their polygons and the centre of pressure are: `HumSafeSpec.v`. Proof: The constraints of C36 at the first sample are moved from the plan to the state that the call leaves (C39, C40, C55): the centre of pressure by the motion of C67, the feet because a flying foot reaches the planned step at the end of its phase. The exception is refuted on a walk of integers (`PropHumSafeCase.v`), whose hull computation is done exactly (`zhull`). Theorems in `PropHumSafe.v`, `PropHumSafeCase.v`.
* **C69 The motion limits along a run.** Model: `TrajModel.v`, `ZebModel.v`, histories of calls; the motion between calls: `LimSpec.v`. Proof: On one axis: the acceleration is affine in time, so it stays between its values at the call and at the first sample; the velocity is quadratic and the jerk bounds how far it leaves its chord; the margin jl*T*(T-f)/2 is the fixed point of that bound. Induction on the run, with C21, C42 and C59 for the calls. Theorems in `PropLim.v`.
* **C70 The walk does not depend on where the robot is.** Model: `SupModel.v`, `HumModel.v`, histories of calls; two generators of which the second is elsewhere: `ShiftSpec.v`. Proof: A simulation: the relation "(a, b) further" is kept by every public call, function by function. The selection matrices of the supervisor attribute each sample to one foot or step (`SelCover.v`), so that the global centre of pressure moves by (a, b); the objectives and constraints are then the same matrices and vectors. For walks, induction over the calls with the invariants of C55: in a single support there is a step in the preview. Theorems in `PropShift.v`, `PropShiftCases.v`.
* **C71 Which calls the trajectory generator accepts and what each changes.** Model: `TrajModel.v`; the view of a user and the effect of each call on it: `TrajCallSpec.v`. Proof: Case analysis over the calls, with the invariant of the reachable generators (C23) for the cached matrices. The problem posed is a function of the view by the characterisations of its cost and constraints (C19, C20). Theorems in `PropTrajCalls.v`.
* **C72 The humanoid walk generator always has an admissible motion.** Model: HumPlanSpec (good polygons, ordinary plans, plans whose steps can be made) Proof: a centre of pressure is chosen in each polygon and steps are chosen one after the other (kept where they were, but the last, if a polygon is not a rectangle), then C67 and C68 Theorems in `PropHumPlan.v`.
* **C73 The integrated state does not run away from the reported jerks.** Model: DriftSpec (the exact flow, magnitudes, the errors of one and of n updates, the log of a run) Proof: an error calculus for products and sums with rounding gives one update; induction over the calls gives the sums 1, n, n^2/2, n^3/6 Theorems in `DriftZeb.v`, `PropDrift.v`.
* **C74 The Zebulon generator behaves the same wherever the robot is.** Model: ZebShiftSpec (the same generator elsewhere, the same calls elsewhere, the same outcome) Proof: the columns that multiply the positions cancel in every part of the problem; every setter commutes with the displacement; induction over the calls Theorems in `PropZebShift.v`.
* **C75 The trajectory generator does not depend on the origin or on the direction of its axis.** Model: TrajShiftSpec (the same generator with another origin, the reversed generator, calls and solver) Proof: the position columns cancel in the gradient; the gradient is odd and the bounds change places under the change of sign; induction over the calls; uniqueness of the optimum for two exact solvers Theorems in `PropTrajShift.v`.
* **C76 A robot that already moves as asked goes on doing so.** Model: SteadySpec (on course, allowed, solves by exact solvers, renewed references) Proof: the course has cost 0, and a positive jerk weight makes no jerk the only plan of cost 0; induction over the solves Theorems in `PropSteady.v`.

## Testing the theorems against wrong programs

`seeded/LOG.jsonl` has one line per wrong program: the definition edited in a scratch copy, the edit, the claim it
breaks, the theorems whose proof then fails, and the theorems tightened because of it.

## Trusted base

* The kernel of Coq 8.16.1, including its conversion machine used by `vm_compute` in examples and runs.
* The axioms below, all from Coq's standard library, and no axiom of our own:
  * `D` = `ClassicalDedekindReals.sig_forall_dec`, `N` = `ClassicalDedekindReals.sig_not_dec` (construction of the reals),
  * `F` = `FunctionalExtensionality.functional_extensionality_dep`,
  * `C` = `Classical_Prop.classic`.
* That the Gallina definitions say what the C++ does (they were written by reading it; nothing was extracted or run),
  under the simplifications listed above.

What `Print Assumptions` lists for each theorem (`-` = closed under the global context):

| Property | Theorem: axioms |
|---|---|
| C01 | `C01_preview_position`: D F; `C01_preview_velocity`: D F; `C01_preview_acceleration`: D F; `C01_preview_jerk`: D F |
| C02 | `C02_preview_cop`: D F |
| C03 | `C03_preview_angle`: D F; `C03_preview_angular_velocity`: D F |
| C04 | `C04_flow`: D F; `C04_ode`: D F; `C04_initial`: D F; `C04_invertible`: D F |
| C05 | `C05_causality`: D F |
| C06 | `C06_acc_inverse_iff`: D F; `C06_order2vel_inverse_iff`: D F; `C06_transposes`: D F; `C06_acc_inverse_refuted`: D F |
| C07 | `C07_position_unique_input`: D F; `C07_velocity_unique_input`: D F; `C07_cop_unique_input`: D F; `C07_cop_singular`: D F |
| C08 | `C08_position_inverse`: D F; `C08_velocity_inverse`: D F; `C08_angle_inverse`: D F; `C08_cop_inverse`: D F; `C08_truncation_refuted`: D F |
| C09 | `C09_start`: D F; `C09_end`: D F; `C09_zero_duration`: D F |
| C10 | `C10_twice_differentiable`: D F; `C10_returned`: D F |
| C11 | `C11_unique`: D F |
| C12 | `C12_lands_on_target`: D F; `C12_replanning_defined`: D F; `C12_starts_from_current`: D F |
| C13 | `C13_constraints_are_region`: D F; `C13_leaning_edge_refuted`: D F |
| C14 | `C14_vertices_from_input`: D N F C; `C14_starts_lowest`: D N F C; `C14_empty`: -; `C14_lowest_only_up_to_tolerance`: D F |
| C15 | `C15_safe_and_terminating`: -; `C15_one_point_refuted`: D N F C; `C15_assertion_fails_refuted`: D N F C; `C15_release_build_refuted`: D N F C; `C15_returns`: D N F C |
| C16 | `C16_factor_at_least_one`: D F; `C16_scaled_entries`: D F; `C16_factor_is_tight`: D F; `C16_zebulon_factors`: D N F C |
| C17 | `C17_normalisation_preserves_solutions`: D F; `C17_zebulon_minimisers`: D N F C |
| C18 | `C18_reported_with_stream`: -; `C18_never_reported_without_stream`: -; `C18_returns_iff`: -; `C18_silent_failure_refuted`: D F |
| C19 | `C19_posed_problem`: -; `C19_warm_start_transparent`: D F; `C19_zebulon_warm_start`: D N F C |
| C20 | `C20_objective`: D F |
| C21 | `C21_constraints`: D F; `C21_no_constraints`: D F |
| C22 | `C22_optimal_with_limits`: D N F C; `C22_optimal_without_limits`: D N F C; `C22_independent_of_history`: D N F C; `C22_state_advances`: D F |
| C23 | `C23_solve_returns_iff`: D F; `C23_resize_refuted`: D F; `C23_calls_return`: D F |
| C24 | `C24_lip_previews_current`: D F; `C24_lip_recompute_changes_nothing`: D F; `C24_base_previews_current`: D F; `C24_nodyn_previews_current`: D F |
| C25 | `C25_nodyn_setters_exact`: D F; `C25_nodyn_readback`: D F; `C25_nodyn_constructor`: D F; `C25_lip_available_implies_valid`: D F; `C25_lip_setters_exact`: D F; `C25_lip_valid_histories_run`: D F; `C25_lip_manual_refuted`: D F; `C25_lip_long_feedback_refuted`: D F; `C25_lip_zero_feedback_refuted`: D F; `C25_lip_negative_period_refuted`: D F; `C25_base_always_valid`: D F; `C25_base_setters_exact`: D F; `C25_base_manual_gravity_refuted`: D F; `C25_base_default_contact_point_refuted`: D F |
| C26 | `C26_feedback_index_in_range`: D F; `C26_period_not_dividing_refuted`: - |
| C27 | `C27_timeline_alternates`: D F; `C27_never_the_same_foot_twice`: D F; `C27_executed_phase_changes`: D F; `C27_plan_keeps_walking`: D F |
| C28 | `C28_stop_is_planned`: D F; `C28_stopping_stays`: D F; `C28_stop_is_reached`: D F |
| C29 | `C29_one_support_per_sample`: D F |
| C30 | `C30_timeline_covers_horizon`: D F |
| C31 | `C31_walk_never_fails`: D F; `C31_empty_timeline_refuted`: - |
| C32 | `C32_size_after_update`: D F; `C32_walk_size_exact`: D F; `C32_stop_in_double_support_refuted`: - |
| C33 | `C33_steps_kept_and_added`: D F; `C33_enclosed_respects_constraints`: D F; `C33_step_added_in_single_support_refuted`: - |
| C34 | `C34_support_foot_never_moves`: D F; `C34_other_calls_move_nothing`: D F |
| C35 | `C35_sample_weights`: D F; `C35_single_sample_refuted`: - |
| C36 | `C36_feasible_iff`: D F; `C36_cop_in_phase_polygon`: D F; `C36_simulated_cop_supported`: D F |
| C37 | `C37_steps_up_to_previous_move`: D F; `C37_first_step_reachable`: D F; `C37_reachable_iff`: D F; `C37_reachable_if_last_only`: D F; `C37_stale_previous_step_refuted`: - |
| C38 | `C38_cost_of_the_motion`: D F; `C38_minimiser_minimises_the_motion_cost`: D F; `C38_hessian_symmetric_psd`: D F |
| C39 | `C39_jerks_give_the_cop`: D F; `C39_no_other_jerks`: D F; `C39_first_interval`: D F; `C39_solve_applies_first_jerks`: D F; `C39_planned_cop_is_reached`: D F |
| C40 | `C40_run_aborts_refuted`: -; `C40_matrices_have_the_problem_sizes`: D F; `C40_entries_distinct`: D F; `C40_lookup_in_range`: D F; `C40_polygons_counted`: D F; `C40_late_polygon_fails`: D F; `C40_solver_must_match`: D F; `C40_fresh_solvers_match`: D F; `C40_stale_solvers_refuted`: D F; `C40_standing_never_solved_refuted`: D F |
| C41 | `C41_objective`: D N F C; `C41_first_interval`: D F |
| C42 | `C42_feasible_set`: D N F C; `C42_base_limits`: D N F C; `C42_no_constraints`: D N F C |
| C43 | `C43_cop_region`: D N F C; `C43_com_region`: D N F C; `C43_symmetric_polygons`: D N F C; `C43_refuted`: D N F C |
| C44 | `C44_along_heading`: D N F C; `C44_parallel`: D N F |
| C45 | `C45_tilt_equation`: D F; `C45_documented_iff`: D F; `C45_refuted`: D N F C |
| C46 | `C46_cop_reference`: D N F C; `C46_vertical_gravity`: D N F C; `C46_refuted`: D N F C |
| C47 | `C47_current_parameters`: D N F C; `C47_base_height_refuted`: D N F C; `C47_gravity_shift_refuted`: D N F C; `C47_resize_refuted`: D N F C |
| C48 | `C48_total_mass`: D N F C; `C48_body_mass`: D N F C; `C48_base_mass`: D N F C; `C48_lower_mass_refuted`: D N F C |
| C49 | `C49_trajectory`: D F; `C49_trajectory_negative_refuted`: D F; `C49_zebulon`: D N F C; `C49_zebulon_negative_refuted`: D N F C; `C49_humanoid`: D F; `C49_humanoid_negative_refuted`: D F; `C49_humanoid_first_call`: D F |
| C50 | `C50_contact_query_exact`: D F; `C50_contact_readable_iff`: D F; `C50_contact_refuted`: D F |
| C51 | `C51_no_overshoot`: D F |
| C52 | `C52_encloses`: D N F C; `C52_hull_exact`: D N F C; `C52_constraints_are_hull`: D N F C; `C52_repeated_point_refuted`: D N F C; `C52_collinear_refuted`: D N F C |
| C53 | `C53_foot_lands`: D F; `C53_foot_reaches_height`: D F; `C53_walk_feet_land`: D F; `C53_one_sample_steps_never_move`: D F; `C53_foot_does_not_land_refuted`: - |
| C54 | `C54_double_support_polygon`: D N F C |
| C55 | `C55_walk_never_fails`: D F; `C55_unconstrained_cop`: D F; `C55_own_solvers`: D F; `C55_hull_found`: D N F C |
| C56 | `C56_contact_point_refuted`: D N F C; `C56_contact_point_set`: D N F C |
| C57 | `C57_constructor_returns`: D N F; `C57_call_returns_iff`: D N F C; `C57_solve_returns_iff`: D N F C |
| C58 | `C58_optimal`: D N F C; `C58_states_advance`: D N F C; `C58_always_reports_success`: D N F; `C58_unique`: D N F C; `C58_independent_of_history`: D N F C |
| C59 | `C59_call_effect`: D N F C; `C59_initial_state`: D N F; `C59_no_hidden_state`: D N F C |
| C60 | `C60_one_update`: D F; `C60_feet_move_smoothly`: D F |
| C61 | `C61_call_returns_iff`: D F; `C61_call_effect`: D F; `C61_elapsed_time_kept`: D F; `C61_negative_double_support_refuted`: - |
| C62 | `C62_support_foot`: D F; `C62_kinematic_polygon`: D F; `C62_planned_steps`: D F; `C62_query_after_stop_refuted`: D F |
| C63 | `C63_models_histories`: D F; `C63_call_returns_iff`: D F; `C63_call_effect`: D F; `C63_reference_of_other_length`: D F; `C63_resize_refuted`: D F |
| C64 | `C64_restarts_from_present_cop`: D F; `C64_otherwise_continues`: D F; `C64_one_motion`: D F; `C64_guess_does_not_matter`: D F |
| C65 | `C65_one_motion`: D F; `C65_constructor`: D F; `C65_call_returns_iff`: D F; `C65_call_effect`: D F; `C65_updates_always_accepted`: D F; `C65_wrong_size_refuted`: D F |
| C66 | `C66_same_schedule`: D F; `C66_same_solve`: D F; `C66_rounded_walk_never_fails`: D N F C; `C66_ieee_rounding`: D N F C; `C66_generator_same_schedule`: D F; `C66_generator_same_solve`: D F |
| C67 | `C67_solve_applies_the_best_motion`: D N F C; `C67_one_best_motion`: D F; `C67_exact_solvers_agree`: D N F C; `C67_always_about_to_solve`: D F; `C67_walks_agree`: D N F C |
| C68 | `C68_cop_under_the_feet`: D F C; `C68_cop_after_the_last_step`: D F C; `C68_steps_land_within_reach`: D F C; `C68_exact_solvers_respect`: D N F C; `C68_cop_off_the_feet_refuted`: D N F C |
| C69 | `C69_limits_along_a_run`: D F; `C69_base_limits_along_a_run`: D N F C; `C69_velocity_limit_refuted`: D F; `C69_long_feedback_refuted`: D F; `C69_always_admissible_refuted`: D F |
| C70 | `C70_same_problem_anywhere`: D F; `C70_histories_anywhere`: D F; `C70_walks_anywhere`: D F C; `C70_put_anywhere`: D F; `C70_readings`: D; `C70_symmetric`: D F; `C70_same_outcome`: D F; `C70_planned_steps_forgotten_refuted`: D F; `C70_first_step_guessed_refuted`: -; `C70_sample_without_foot_refuted`: - |
| C71 | `C71_initial_state`: D F; `C71_call_effect`: D F; `C71_calls_accepted`: D F; `C71_refused_calls_stop`: D F; `C71_no_hidden_state`: D F; `C71_anywhere`: D F |
| C72 | `C72_admissible_motion`: D F; `C72_hulls_are_good`: D N F C; `C72_best_motion_is_applied`: D N F C; `C72_exact_walks_are_safe`: D N F C |
| C73 | `C73_zebulon`: D F; `C73_one_update`: D F; `C73_trajectory`: D F; `C73_humanoid`: D F; `C73_ten_seconds`: D N F C |
| C74 | `C74_same_problem_anywhere`: D N F C; `C74_histories_anywhere`: D N F C; `C74_put_anywhere`: D N F C; `C74_light_base_refuted`: D N F C |
| C75 | `C75_same_problem_anywhere`: D F; `C75_histories_anywhere`: D F; `C75_read_anywhere`: D F; `C75_put_anywhere`: D F; `C75_reversed_histories`: D F; `C75_reversed_from_new`: D F; `C75_reversed_solver_exact`: D F; `C75_exact_solvers_reverse`: D N F C |
| C76 | `C76_stays_on_course`: D N F C; `C76_stays_for_ever`: D N F C; `C76_follows_exactly`: D N F C |
