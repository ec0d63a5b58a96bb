{"id": "C01", "title": "Preview matrices agree with the integrator", "statement": "For every horizon length, first-step duration S, sampling period T, initial state and jerk sequence, the previewed position/velocity/acceleration at sample i (S-matrix times state plus U-matrix times jerks plus K) is exactly the position/velocity/acceleration obtained by running updateState once with duration S and jerk 0 and then with duration T for jerks 1..i. The jerk dynamics returns the jerk itself.", "quantifier": "all horizon lengths N, all S,T>0, all initial states, all jerk sequences, all samples i<N", "why_tests_cant": "The closed-form matrix entries depend on N, i, j; tests check one or two small N.", "anchors": ["src/tools.cpp: ConstantJerkDynamic::computePosDynamic, computeVelDynamic, computeAccDynamic, computeJerkDynamic, updateState"]}
{"id": "C02", "title": "CoP preview obeys the (tilted gravity) pendulum equation", "statement": "For every horizon and jerk sequence the previewed CoP at sample i is (mass/totalMass) * (c - h/gz * c'' - h*gx/gz) where c, c'' are the simulated CoM position and acceleration at that sample.", "quantifier": "all N, S, T, CoM heights, gravity vectors with |gz|>eps, masses 0<=m<=M, states, jerk sequences, samples", "why_tests_cant": "Closed forms over unbounded N; tests only sample literals.", "anchors": ["src/tools.cpp: ConstantJerkDynamic::computeCopDynamic, updateState"]}
{"id": "C03", "title": "Second order preview agrees with the second order integrator", "statement": "The order-2 position and velocity previews (tilt angle and angular velocity driven by angular acceleration) equal the iteration of the exact constant-acceleration update.", "quantifier": "all N, S, T, 2-states, acceleration sequences, samples", "why_tests_cant": "Unbounded N.", "anchors": ["src/tools.cpp: ConstantJerkDynamic::computeOrder2PosDynamic, computeOrder2VelDynamic"]}
{"id": "C04", "title": "State update is the exact flow of a triple integrator", "statement": "updateState with duration a then duration b under the same jerk equals one updateState of duration a+b; duration 0 is the identity; it is invertible; and as a function of duration position' = velocity, velocity' = acceleration, acceleration' = jerk.", "quantifier": "all states, jerks, durations", "why_tests_cant": "Universal over reals.", "anchors": ["src/tools.cpp: ConstantJerkDynamic::updateState", "src/model/lip_model.cpp: updateStateX/Y", "src/model/zebulon_base_model.cpp: updateStateX/Y"]}
{"id": "C05", "title": "Preview is causal", "statement": "The prediction for sample i does not depend on any jerk after sample i, for position, velocity, acceleration and CoP previews; changing only later jerks never changes it.", "quantifier": "all N, samples, pairs of jerk sequences that agree up to i", "why_tests_cant": "Quantifies over all pairs of infinite families of inputs.", "anchors": ["src/tools.cpp: all compute*Dynamic"]}
{"id": "C06", "title": "Hand written inverses are exact", "statement": "For the acceleration preview and the order-2 velocity preview the stored inverse matrix really is the two sided inverse of the input matrix for every horizon length, and the stored transposes are transposes.", "quantifier": "all N, S,T>0", "why_tests_cant": "Unbounded N.", "anchors": ["src/tools.cpp: computeAccDynamic, computeOrder2VelDynamic"]}
{"id": "C07", "title": "Any position (velocity, CoP) sequence has exactly one jerk sequence", "statement": "The position and velocity input matrices are always invertible, so a desired sequence is realised by exactly one jerk sequence. The CoP input matrix is invertible exactly when the mass is non zero and h/gz differs from S^2/6 and (if N>1) from T^2/6; otherwise it is singular.", "quantifier": "all N, S,T>0, heights, gravities, masses, target sequences", "why_tests_cant": "Existence and uniqueness over all real sequences of any length.", "anchors": ["src/tools.cpp: computePosDynamic, computeVelDynamic, computeCopDynamic", "mpc-walkgen/tools.h: inverseLU"]}
{"id": "C08", "title": "Stored inverse of an LU-inverted preview really is the inverse", "statement": "Multiplying a preview's U by its stored Uinv gives the identity. The code zeroes all inverse entries smaller than epsilon, so this must be checked: it is exact when no non-zero inverse entry is below epsilon, and fails otherwise (large sampling period).", "quantifier": "all N, S, T>0", "why_tests_cant": "Depends on magnitude of entries for arbitrary parameters.", "anchors": ["mpc-walkgen/tools.h: inverseLU", "src/tools.cpp: computePosDynamic"]}
{"id": "C09", "title": "Spline meets the requested end states", "statement": "The polynomial interpolation between an initial and a final (position, velocity, acceleration) state over duration T>0 takes exactly these values at time 0 and at time T.", "quantifier": "all states, all T>0", "why_tests_cant": "Real valued universal statement; tests check a few values to tolerance.", "anchors": ["src/interpolator.cpp: computePolynomialNormalisedFactors, selectFactors", "mpc-walkgen/tools.h: polynomValue, dPolynomValue, ddPolynomValue"]}
{"id": "C10", "title": "Spline is twice continuously differentiable at its junctions", "statement": "At T/3 and 2T/3 the two adjacent cubic pieces agree in value, first and second derivative; the piece chosen at a junction therefore does not matter.", "quantifier": "all states, all T>0", "why_tests_cant": "Universal over reals.", "anchors": ["src/interpolator.cpp"]}
{"id": "C11", "title": "Spline coefficients are the only ones possible", "statement": "Any three cubics with C2 junctions at 1/3 and 2/3 that meet the boundary states have exactly the coefficients the interpolator computes.", "quantifier": "all boundary states and all competing triples of cubics", "why_tests_cant": "Uniqueness over all competitors.", "anchors": ["src/interpolator.cpp: aInvNorm_"]}
{"id": "C12", "title": "Flying foot trajectory starts where the foot is and lands on target", "statement": "Interpolating a foot trajectory from the current state with remaining duration T gives the current state for t=0 and the target position with zero velocity and acceleration for t=T, whatever intermediate re-planning happened before.", "quantifier": "all foot states, targets, durations, any history of previous feedback steps", "why_tests_cant": "Quantifies over histories of re-planning.", "anchors": ["src/model/humanoid_foot_model.cpp: interpolateTrajectory, updateStateX/Y/Z", "src/humanoid_feet_supervisor.cpp: updateFeetStates"]}
{"id": "C13", "title": "Polygon constraints describe exactly the convex region", "statement": "For a convex polygon with counter clockwise vertices, a point satisfies the x/y bounds and all general constraints iff it is on the inner side of every edge.", "quantifier": "all vertex lists of any length with non-degenerate axis alignment, all points", "why_tests_cant": "Any number of vertices, all points.", "anchors": ["src/convexpolygon.cpp: computeBoundsAndGeneralConstraintValues"]}
{"id": "C14", "title": "Hull vertices are input points, starting at the lowest leftmost one", "statement": "extractVertices only returns input points; an empty input yields an empty polygon; the first vertex is a lowest point up to the epsilon tie rule.", "quantifier": "all finite point lists", "why_tests_cant": "All lists of any length.", "anchors": ["src/convexpolygon.cpp: extractVertices, getIndexOfLowestAndLeftmostVertice, getIndexOfSmallestAngleVertice"]}
{"id": "C15", "title": "Hull extraction is memory safe and terminates", "statement": "Building a polygon from two points or more never reads outside the vector of points, and in a build with assertions always terminates; it returns when the points are separated by more than the tolerances. The unrestricted property is violated: a single point makes it read index 1 of a vector of one element; three points within a millimetre of each other make the assertion fail and, in a build without assertions, the loop run forever.", "quantifier": "all finite point lists", "why_tests_cant": "Termination and absence of UB over all inputs.", "anchors": ["src/convexpolygon.cpp: extractVertices, getIndexOfSmallestAngleVertice"]}
{"id": "C16", "title": "Normalisation factor is at least one and finite", "statement": "getNormalizationFactor (and ZebulonWalkgen's factors) is a positive number >= 1, and after scaling every entry that was above epsilon has magnitude >= 1.", "quantifier": "all matrices of any size", "why_tests_cant": "All matrices.", "anchors": ["qpsolver/mpc-walkgen/qpsolver.h: QPMatrices::getNormalizationFactor, normalizeMatrices", "src/zebulon_walkgen.cpp: computeNormalizationFactor"]}
{"id": "C17", "title": "Normalising a QP does not change its solutions", "statement": "The feasible set and the set of minimisers of the QP before and after normalizeMatrices (and after ZebulonWalkgen scaling of Q,p,A,bl,bu) are identical.", "quantifier": "all QPs of any size", "why_tests_cant": "Quantifies over all candidate solutions.", "anchors": ["qpsolver/mpc-walkgen/qpsolver.h: normalizeMatrices", "src/zebulon_walkgen.cpp: solve, computeConstantPart"]}
{"id": "C18", "title": "Solver failure is reported to the caller", "statement": "solve() of the QP solver returns exactly when every matrix and vector of the problem has the size the solver was made for and the output vector is long enough. Given an output stream, the flag it returns is the success flag of the underlying solver. Without an output stream it returns true whatever the underlying solver says: the code violates the property that a failure is reported to the caller, and no walk generator passes a stream.", "quantifier": "all QPs, all outcomes of the underlying solver, both values of the stream argument, init/hotstart states", "why_tests_cant": "Any solver outcome at any time.", "anchors": ["qpsolver/src/qpsolver_qpoases.hxx: solve", "src/humanoid_walkgen.cpp: solve", "src/zebulon_walkgen.cpp: solve", "src/trajectory_walkgen.cpp: solve"]}
{"id": "C19", "title": "Warm starting never uses stale matrices", "statement": "The first call, and every call without hot start, solves the problem given and remembers its Hessian and constraint matrix; a hot start solves the problem made of the vectors given and the matrices remembered. In every history of calls of the trajectory and Zebulon generators, whenever the solver is hot-started the matrices it remembers equal the ones of the problem being posed, so that the call cannot be told from one with a fresh solver.", "quantifier": "all sequences of API calls on the trajectory and Zebulon generators", "why_tests_cant": "Depends on arbitrary call histories.", "anchors": ["src/trajectory_walkgen.cpp: computeConstantPart, solve, setters", "src/zebulon_walkgen.cpp: computeConstantPart, solve, setters", "qpsolver/src/qpsolver_qpoases.hxx"]}
{"id": "C20", "title": "Trajectory QP objective is the documented cost", "statement": "The quadratic objective handed to the solver by TrajectoryWalkgen equals, up to a constant, the weighted sum of squared velocity errors, position errors and jerks of the simulated motion under X+dX.", "quantifier": "all N, periods, states, references, weights, X, dX", "why_tests_cant": "All horizons and reals.", "anchors": ["src/trajectory_walkgen.cpp: solve, computeConstantPart", "src/function/trajectory_velocity_tracking_objective.cpp", "src/function/trajectory_position_tracking_objective.cpp", "src/function/trajectory_jerk_minimization_objective.cpp"]}
{"id": "C21", "title": "Trajectory QP constraints are exactly the motion limits", "statement": "dX is feasible for the QP iff the simulated motion under X+dX respects velocity, acceleration and jerk limits at every sample.", "quantifier": "all N, periods, states, limits, X, dX", "why_tests_cant": "All horizons and reals.", "anchors": ["src/trajectory_walkgen.cpp: solve", "src/function/trajectory_motion_constraint.cpp"]}
{"id": "C22", "title": "One trajectory solve yields the optimal admissible motion, independently of the previous guess", "statement": "If the QP solver returns an exact minimiser then after solve the jerk sequence is admissible and has the least cost among all admissible jerk sequences, whatever X was before; and the model state advances by exactly one feedback period with its first jerk.", "quantifier": "all states, limits, previous X, all competing jerk sequences", "why_tests_cant": "Optimality over all competitors.", "anchors": ["src/trajectory_walkgen.cpp: solve"]}
{"id": "C23", "title": "When the trajectory generator can be solved", "statement": "In every history of calls, the trajectory generator's solve returns exactly when the feedback period is positive and both references have as many entries as there are samples; every setter returns on meaningful arguments. The property that it can be solved again after changing the number of samples is violated: the references keep their old size, so that solve always aborts until they are set again.", "quantifier": "all call sequences", "why_tests_cant": "Arbitrary call histories.", "anchors": ["src/trajectory_walkgen.cpp: setNbSamples", "src/humanoid_walkgen.cpp: setNbSamples", "src/zebulon_walkgen.cpp: setNbSamples"]}
{"id": "C24", "title": "Model setters keep the preview dynamics up to date", "statement": "With automatic computation on, after any sequence of successful setter calls, every stored preview dynamics of LIPModel / BaseModel / NoDynamicModel equals the one computed from the current parameters.", "quantifier": "all finite sequences of setter calls with all arguments", "why_tests_cant": "Arbitrary call histories.", "anchors": ["src/model/lip_model.cpp", "src/model/zebulon_base_model.cpp", "src/model/no_dynamic_model.cpp"]}
{"id": "C25", "title": "Setter guards accept exactly the meaningful parameters", "statement": "With automatic computation on, in every reachable BaseModel, and in every reachable LIPModel with at least one feedback slot per sample, the parameters are valid (positive period and feedback period, at least one sample, non-zero vertical gravity, 0<=mass<=total mass, non-zero total mass); each parameter setter returns exactly when the new parameters are valid, and a LIPModel history whose parameters are valid after each call never aborts. The code violates the unrestricted property: with automatic computation off, or with a feedback period longer than the sampling period, zero gravity and mass above total mass are accepted; a zero feedback period passes its assertion and is then undefined behaviour; a negative period is accepted by the LIPModel constructor; the gravity assertion tests the previous value, so after an accepted zero gravity every later setGravity aborts; the tilt contact point of a default-constructed BaseModel is uninitialised. In every reachable NoDynamicModel, with automatic computation on or off, the number of samples and the period are positive and the limits are not negative; each setter returns exactly on such values (and on states of three entries), and changes only the parameter it names.", "quantifier": "all histories of constructor and setter calls, all arguments", "why_tests_cant": "Arbitrary call histories.", "anchors": ["src/model/lip_model.cpp: setGravity, setFeedbackPeriod, setMass", "src/model/zebulon_base_model.cpp: setGravity, setMass"]}
{"id": "C26", "title": "Feedback index stays in range", "statement": "In a walk whose sampling period is n feedback periods, at every feedback cycle the number of calls before the next sample minus one - the index of the per-feedback dynamics that the walk generator uses - is between 0 and n-1, is determined by the remaining time of the phase, and the LIP model holds exactly n such dynamics. When the feedback period does not divide the sampling period this fails: with 0.1 and 0.03 the index -1 is used after three cycles.", "quantifier": "all configured walks (horizon, period, step and double support durations multiple of the period), all histories of moves, foot data and QP solutions", "why_tests_cant": "All schedules.", "anchors": ["src/humanoid_feet_supervisor.cpp: getNbOfCallsBeforeNextSample", "src/humanoid_walkgen.cpp: solve", "src/model/lip_model.cpp: getCopXLinearDynamic"]}
{"id": "C27", "title": "Gait alternates feet", "statement": "After any history of public calls, the planned phases form a run of the gait automaton: double support is followed by double support or left support, a single support by the other foot's single support or double support; the executed phase changes only in updateTimeline, when its time is over, to the phase planned next; while move is requested the plan never contains a further double support.", "quantifier": "all histories of constructor, setter and update calls, without any timing assumption", "why_tests_cant": "All call histories.", "anchors": ["src/humanoid_feet_supervisor.cpp: processFSM, setPhase, updateTimeline, setMove"]}
{"id": "C28", "title": "Stopping request ends in double support", "statement": "After setMove(false), the next updateTimeline plans only double supports after the current phase; until setMove(true) every call keeps that, and double support once reached is kept. In a configured walk double support is reached after at most (longest phase duration / feedback period)+1 feedback cycles.", "quantifier": "all call histories; for the deadline, all configured walks", "why_tests_cant": "All call histories.", "anchors": ["src/humanoid_feet_supervisor.cpp: processFSM, updateTimeline"]}
{"id": "C29", "title": "Every preview sample belongs to exactly one foot step", "statement": "After updateTimeline each preview sample lies in exactly one planned phase, and row r of [V0|V] has a single 1, in the column given by the number of steps made before that phase (0 = current support, below or equal to the number of previewed steps).", "quantifier": "all states from which the timeline can be updated (every state of every configured walk is one), all horizons and durations", "why_tests_cant": "All timelines.", "anchors": ["src/humanoid_feet_supervisor.cpp: computeSelectionMatrix"]}
{"id": "C30", "title": "Timeline covers the preview horizon", "statement": "After updateTimeline the phases cover the preview horizon: the phase index stored for each sample designates the phase in progress at that sample's time, the last planned phase is the one of the last sample, and it ends after it.", "quantifier": "all states from which the timeline can be updated, all horizons, durations, times in the phase", "why_tests_cant": "All call histories.", "anchors": ["src/humanoid_feet_supervisor.cpp: updateTimeline, computeSelectionMatrix"]}
{"id": "C31", "title": "A walk never aborts nor reads an empty timeline", "statement": "For every supervisor configured with durations that are positive multiples of the sampling period, itself a multiple of the feedback period, and a step at most one sample longer than the horizon, any number of feedback cycles, with any move commands, foot data changes and QP solutions, succeeds and leaves a state from which the timeline can be updated. The unrestricted claim is violated: an initial double support of length 0 is accepted and the next updateTimeline reads an empty buffer.", "quantifier": "all configurations and histories as described", "why_tests_cant": "UB over all histories.", "anchors": ["src/humanoid_feet_supervisor.cpp: updateTimeline, setInitialDoubleSupportLength"]}
{"id": "C32", "title": "Decision vector size follows the plan", "statement": "updateTimeline yields 2N+2max(kept,M) entries while moving and 2N+2min(1,max(kept,M)) while stopping, where M<=N is the number of previewed steps and kept the number of steps kept; in a walk never stopped in double support the vector always has exactly 2N+2M entries. Violated otherwise: stopping during the initial double support leaves two entries too many.", "quantifier": "all states from which the timeline can be updated; all configured walks", "why_tests_cant": "All call histories.", "anchors": ["src/humanoid_feet_supervisor.cpp: updateTimeline, shortenStepVec, enlargeStepVec"]}
{"id": "C33", "title": "Planned steps are kept, and added steps are reachable", "statement": "updateTimeline keeps the 2N first entries and all planned steps in order, removing the first one exactly when a single support ends; each added step, relatively to the step before it (the left foot when the walk starts), is in the convex hull of its kinematic polygon, so it satisfies that polygon's constraints. Violated for a first step added during a single support (steps longer than the horizon): it is placed relatively to the last CoP entry.", "quantifier": "all states from which the timeline can be updated, all decision vectors and polygons", "why_tests_cant": "All sizes and values.", "anchors": ["src/humanoid_feet_supervisor.cpp: updateTimeline, shortenStepVec, enlargeStepVec, getKinematicConvexPolygon"]}
{"id": "C34", "title": "The support foot never moves", "statement": "updateFeetStates never changes the support foot; it changes neither foot in double support nor in the opening sampling period of a step; no other call than the foot state setters changes a foot state.", "quantifier": "all states, all inputs, all calls", "why_tests_cant": "All call histories.", "anchors": ["src/humanoid_feet_supervisor.cpp: updateFeetStates"]}
{"id": "C35", "title": "Sample weights cover one period", "statement": "The sample weight matrix is diagonal with 1 in the middle, the fraction of the sampling period before the next sample first, and 1.05 minus it last; with more than one sample and a next sample within the period all weights are positive. Violated with one sample: the first weight is overwritten.", "quantifier": "all states from which the timeline can be updated", "why_tests_cant": "All schedules.", "anchors": ["src/humanoid_feet_supervisor.cpp: computeSampleWeightMatrix"]}
{"id": "C36", "title": "Humanoid CoP constraints keep the CoP in the support polygon", "statement": "A change of the decision vector is feasible for the problem that solve builds iff it stays below the numerical infinity, every new CoP is in the support polygon of its sample's phase, and the step conditions of C37 hold. When the inverse CoP matrices are exact, the CoP of the simulated centre of mass motion, relative to the foot then on the ground, is in the polygon of the phase in progress at every sample.", "quantifier": "all call histories, horizons, timelines, polygons, decision vectors and changes", "why_tests_cant": "All horizons and polygons.", "anchors": ["src/function/humanoid_cop_constraint.cpp", "src/convexpolygon.cpp"]}
{"id": "C37", "title": "Humanoid foot constraints keep steps reachable", "statement": "Feasible changes satisfy, for every step, the oblique sides of the kinematic polygon relative to the new previous step, and its axis-aligned sides relative to the previous step of the old solution; so the first step is always reachable, the error is at most the move of the previous step, and all steps are reachable iff the boxes also hold from the new previous steps (for instance when only the last step moves). The unrestricted claim is violated: with two steps, moving the first by +0.1 and the second by -0.1 is feasible and leaves the second 0.2 behind the first with a box of 0.1.", "quantifier": "all call histories, numbers of steps, polygons, decision vectors and changes", "why_tests_cant": "All numbers of steps.", "anchors": ["src/function/humanoid_foot_constraint.cpp"]}
{"id": "C38", "title": "Humanoid objectives are the documented costs", "statement": "The cost of the problem solve builds is, up to a constant, the weighted squared error of the simulated centre of mass velocity, plus the weighted squared jerks, plus the squared CoP positions, of the motion that solve then applies; so a minimiser of the problem minimises that cost among the feasible motions. The Hessian is symmetric and positive semidefinite.", "quantifier": "all call histories, N, M, timelines, states, references, weights, decision vectors and changes", "why_tests_cant": "All sizes.", "anchors": ["src/function/humanoid_lip_com_velocity_tracking_objective.cpp", "src/function/humanoid_lip_com_jerk_minimization_objective.cpp", "src/function/humanoid_cop_centering_objective.cpp"]}
{"id": "C39", "title": "CoP to jerk conversion reproduces the decision variables", "statement": "The jerks computed from the decision vector, and no others, give the simulated centre of mass, at every sample, the CoP of the decision vector plus the position of the foot then on the ground; steps are unchanged; solve applies the first jerks and the first step during the feedback period, so that one feedback period before a sample the state after solve has exactly the planned CoP.", "quantifier": "all call histories, N, M, timelines, states (exact inverses of the CoP matrices)", "why_tests_cant": "All sizes.", "anchors": ["src/humanoid_walkgen.cpp: convertCopInLFtoComJerk, solve"]}
{"id": "C40", "title": "Pre-built QP lookup is injective and in range", "statement": "The index that solve computes selects prebuilt matrices with exactly the sizes of the problem, different sizes have different entries, and after setNbSamples or setConfig, as long as no polygon is set, the entry exists at every solve. solve succeeds only if the solver at that index also has these sizes. This is violated: the table of solvers is appended to and never cleared, so after setNbSamples(n), n>=2, no solve ever succeeds whatever calls other than setNbSamples and setConfig are made; with two samples or more, standing still without constraints is never solved in any history; polygons with more sides set after setConfig make solve fail.", "quantifier": "all N, M, numbers of constraints, all call histories", "why_tests_cant": "All call histories.", "anchors": ["src/humanoid_walkgen.cpp: solve, computeConstantPart"]}
{"id": "C41", "title": "Zebulon QP objective is the documented cost", "statement": "The objective handed to the solver equals, up to a constant and a factor at least 1, the weighted sum of the squared errors of the simulated motion: base velocity and position tracking, CoP, relative CoM, jerks, tilt angle and tilt velocity. (For the tilt terms the parameters must be moderate enough that no coefficient of the inverse is dropped.)", "quantifier": "all call histories, N, states, masses, heights, references, weights, X, dX", "why_tests_cant": "All sizes and values.", "anchors": ["src/zebulon_walkgen.cpp", "src/function/zebulon_*_objective.cpp"]}
{"id": "C42", "title": "The Zebulon feasible set is exactly the enabled constraints", "statement": "A change of the plan is feasible iff the simulated motion satisfies exactly the enabled constraints (base limits, CoP, CoM, heading), within the numerical infinity 1e11; with only the base limits these are the velocity, acceleration and jerk limits of the base at every sample along x and y.", "quantifier": "all call histories, N, states, limits, polygons, X, dX", "why_tests_cant": "All sizes.", "anchors": ["src/function/zebulon_base_motion_constraint.cpp", "src/zebulon_walkgen.cpp: solve"]}
{"id": "C43", "title": "Which region the Zebulon CoP and CoM constraints enforce", "statement": "Every feasible change puts the opposite of the simulated relative CoP (CoM) inside the configured polygon, at every sample; for centrally symmetric polygons this is the point itself. The unrestricted claim is violated: with the rectangle 1<=x<=2 a CoP of -3/2 is feasible and a CoP of 3/2 is not.", "quantifier": "all call histories, polygons, N, states, masses, X, dX", "why_tests_cant": "All polygons, tests only use symmetric ones.", "anchors": ["src/function/zebulon_cop_constraint.cpp", "src/function/zebulon_com_constraint.cpp"]}
{"id": "C44", "title": "Zebulon tilt motion constraint fixes motion along the heading", "statement": "With only the tilt motion constraint, a change (below 1e11) is feasible iff the simulated velocities of the CoM and of the base are parallel to the yaw direction at every sample.", "quantifier": "all call histories, N, yaw, states, X, dX", "why_tests_cant": "All sizes.", "anchors": ["src/function/zebulon_tilt_motion_constraint.cpp"]}
{"id": "C45", "title": "Which equation the previewed tilt satisfies", "statement": "The previewed tilt angles are the unique solution of a linear equation between tilt, tilt acceleration and the simulated motion of the two masses, for each axis. It is not the documented equation g(mh+ML)psi + mg(c-d) = ML d'' + mh c'' + (mhh+MLL) psi'': with the contact point at the origin it agrees only where 2mg(c-d) = (ML+mh)(c''+d''), and for the opposite angle only where (ML-mh)(c''-d'') = 0; a reachable state violates both.", "quantifier": "all N, masses, heights, states, contact points, jerks", "why_tests_cant": "All sizes and values.", "anchors": ["src/function/zebulon_tilt_minimization_objective.cpp: computeConstantPart, getGradient", "src/function/zebulon_tilt_velocity_minimization_objective.cpp"]}
{"id": "C46", "title": "Zebulon reference CoP against its preview", "statement": "The CoP reference derived from reference positions and accelerations of the two masses is the CoP that the preview gives to them plus 2(mh+ML)/((m+M)gz) times the horizontal gravity. It is the same iff gravity is vertical (or the heights vanish); a reachable state with tilted gravity violates the claim.", "quantifier": "all call histories, masses, heights, gravities, reference trajectories", "why_tests_cant": "All values.", "anchors": ["src/function/zebulon_cop_centering_objective.cpp: setCopRefInWorldFrame", "src/tools.cpp: computeCopDynamic"]}
{"id": "C47", "title": "When the Zebulon problem is that of the current parameters", "statement": "If no base height was set since the last call that refreshes the tilt objectives, and the gravity shift of the CoM reference is current or gravity is vertical, then the objective and the feasible set are those of the current parameters. Violated otherwise: after setComBaseHeight the tilt terms use the old height; setNbSamples clears the gravity shift; after a change of the number of samples solve aborts until the three references are set again.", "quantifier": "all call histories", "why_tests_cant": "Arbitrary call histories.", "anchors": ["src/zebulon_walkgen.cpp: setters", "src/function/zebulon_com_centering_objective.cpp"]}
{"id": "C48", "title": "Which masses Zebulon accepts", "statement": "The total mass is always the sum of the two masses in both models. setBodyMass(m) returns iff m>=0, m plus the base mass is above 1/10000 and at least the previous body mass, and the tilt equation is regular; similarly setBaseMass. So a new generator refuses every body mass below 1.", "quantifier": "all call histories and masses", "why_tests_cant": "Arbitrary call histories.", "anchors": ["src/zebulon_walkgen.cpp: setBodyMass, setBaseMass", "src/model/lip_model.cpp: setTotalMass", "src/model/zebulon_base_model.cpp: setTotalMass"]}
{"id": "C49", "title": "Which weights are accepted", "statement": "The trajectory generator checks the velocity and jerk weights only; Zebulon checks all but the position and tilt velocity weights; the humanoid checks the weights stored before the call. So negative weights are accepted (they count as zero); in the humanoid the first call accepts any weights and once a negative one is stored no later setWeightings ever returns, whatever calls are made.", "quantifier": "all weightings and call histories", "why_tests_cant": "All values.", "anchors": ["src/trajectory_walkgen.cpp: setWeightings", "src/zebulon_walkgen.cpp: setWeightings", "src/humanoid_walkgen.cpp: setWeightings"]}
{"id": "C50", "title": "Which contact flags are readable", "statement": "After any history of calls, isInContact(i) aborts outside the current horizon, returns true for samples below both the current and the construction-time number of samples, and reads out of bounds for samples of the current horizon beyond the construction-time one; so every sample of the horizon can be queried exactly when the horizon is not longer than at construction (the flag vector is never resized).", "quantifier": "all call histories, all integer sample indices", "why_tests_cant": "Arbitrary call histories.", "anchors": ["src/model/humanoid_foot_model.cpp: setNbSamples", "mpc-walkgen/model/humanoid_foot_model.h: isInContact"]}
{"id": "C51", "title": "A foot moved from rest to rest never overshoots", "statement": "Interpolating from rest at p to rest at q >= p gives, at every time of the motion, a position between p and q and a non-negative velocity.", "quantifier": "all p <= q, all durations T > 0, all times in [0,T]", "why_tests_cant": "Continuum of positions, durations and times.", "anchors": ["src/interpolator.cpp: Interpolator::interpolateTrajectory"]}
{"id": "C52", "title": "The polygon built from points is their convex hull", "statement": "For any finite set of points separated by more than the tolerances and not on one line, building a ConvexPolygon succeeds, and a point satisfies its constraints iff it is in the convex hull of the given points. (Violated: repeated points give a clockwise polygon that excludes input points; points on a line give the whole line.)", "quantifier": "all finite point lists of any length, all query points", "why_tests_cant": "All point sets of any size and all query points.", "anchors": ["src/convexpolygon.cpp: ConvexPolygon, extractVertices, computeBoundsAndGeneralConstraintValues"]}
{"id": "C53", "title": "The flying foot lands on the planned step", "statement": "In a walk whose steps last at least two feedback periods more than one sampling period, at the end of every step the flying foot is at the first planned step, on the ground, with zero velocity and acceleration; half way it is at its maximal height with zero vertical velocity. Violated for shorter steps: with a step of one sampling period the feet never move, with a step of two sampling periods and one feedback period per sample the foot ends its steps at heights 0.55, then -4.4.", "quantifier": "all configured walks, all histories", "why_tests_cant": "All step durations, feedback periods and QP solutions.", "anchors": ["src/humanoid_feet_supervisor.cpp: updateFeetStates", "src/model/humanoid_foot_model.cpp: updateStateX, updateStateY, updateStateZ", "src/interpolation.cpp"]}
{"id": "C54", "title": "The double support polygon is the hull of both feet", "statement": "The CoP constraints in double support (current, or closing the current step when stopping) describe exactly the convex hull of the two foot polygons, each placed at its foot (the flying foot at its planned step), relatively to the point that the walk generator uses as CoP origin.", "quantifier": "all foot positions, polygons and CoP positions (points separated by the tolerances)", "why_tests_cant": "All polygons and positions.", "anchors": ["src/humanoid_feet_supervisor.cpp: computeDSCopConvexPolygon, getCopConvexPolygon", "src/convexpolygon.cpp"]}
{"id": "C56", "title": "The contact point of the tilt must be set before use", "statement": "A new Zebulon generator has an unspecified contact point, and the objective depends on it: different values left in memory give objectives that are not multiples of each other. Once both coordinates have been set, the visible state does not depend on what was in memory.", "quantifier": "all values left in memory, all call histories", "why_tests_cant": "Depends on uninitialised memory and on arbitrary histories.", "anchors": ["src/model/zebulon_base_model.cpp: ZebulonBaseModel, setTiltContactPointX", "src/function/zebulon_tilt_minimization_objective.cpp"]}
{"id": "C57", "title": "Exactly when each Zebulon call returns", "statement": "The constructor returns; every other call returns iff its arguments have the right sizes and signs and, for the calls that recompute the tilt objectives while they are weighted, the tilt equation is regular; solve returns iff the feedback period is positive and the three references have twice the number of samples.", "quantifier": "all call histories and arguments", "why_tests_cant": "All histories and arguments.", "anchors": ["src/zebulon_walkgen.cpp"]}
{"id": "C58", "title": "One Zebulon solve yields an optimal admissible motion", "statement": "If the solver returns a minimiser whenever there is one and some motion is admissible, then after solve the plan is admissible and has the least cost among the admissible ones; with a positive jerk weight it is the only one, so two generators that look the same make the same plan and reach the same states whatever their histories. The four states advance by the feedback period under the first jerks of the plan. solve always reports success, even when the solver failed.", "quantifier": "all call histories, states, references, previous plans and competing plans", "why_tests_cant": "Optimality over all competitors and all histories.", "anchors": ["src/zebulon_walkgen.cpp: solve"]}
{"id": "C59", "title": "What each Zebulon call changes", "statement": "Each call changes exactly the documented part of the visible state (parameters, states, references, weights, configuration, plan). Two generators with the same visible state, after whatever calls, give the solver the same feasible set, the same objective up to a factor and the same minimisers.", "quantifier": "all calls, all pairs of call histories", "why_tests_cant": "Arbitrary pairs of histories.", "anchors": ["src/zebulon_walkgen.cpp"]}
{"id": "C55", "title": "A humanoid generator that is set up keeps walking", "statement": "Let a humanoid generator be constructed and set up by any calls, with its problem tables built after its last polygon, the sampling period a multiple n of the feedback period, step period and initial double support multiples of the sampling period, a step at most one sample longer than the horizon, kinematic polygons set, a velocity reference of the right size, and heights for which no CoP preview is singular; and let it have a solver for each problem size (its own solvers do only for one sample without constraints, see C40). Then any sequence of solve calls at the feedback period, starts and stops (not in double support), references, states, heights and weights returns, whatever the solver answers, unless the CoP is constrained and the hull of the two feet is not found in double support; it is found if their vertices are separated.", "quantifier": "all set-up histories, all permitted call sequences of any length, all solver answers", "why_tests_cant": "No finite run shows that no later call of an endless walk aborts.", "anchors": ["src/humanoid_walkgen.cpp: solve", "src/humanoid_feet_supervisor.cpp: updateTimeline", "src/model/lip_model.cpp: setFeedbackPeriod"]}
{"id": "C60", "title": "The feet move smoothly", "statement": "In the flying part of a step each update moves the flying foot along the motion made of three cubics that starts from its current position, velocity and acceleration and comes to rest at the first planned step in the remaining time; its height first goes to the maximal height in the first half of the flight, then to the ground. In a walk whose steps last at least two feedback periods more than one sampling period, starting with feet at rest, every coordinate of both feet follows one twice continuously differentiable motion of time, through all steps, starts, stops and changes of the planned steps: the positions, velocities and accelerations after each cycle are those of this motion.", "quantifier": "all configurations, all numbers of cycles, all move commands, all solutions of the quadratic programs", "why_tests_cant": "Smoothness at every junction of an unbounded walk, for all replanned targets.", "anchors": ["src/humanoid_feet_supervisor.cpp: updateFeetStates", "src/model/humanoid_foot_model.cpp: interpolateTrajectory, updateStateX", "src/interpolator.cpp"]}
{"id": "C61", "title": "Which calls the feet supervisor accepts and what each changes", "statement": "In every history of calls: setNbSamples returns iff the number is positive, setSamplingPeriod iff the period is positive, setStepPeriod iff the period is positive and, in single support, the remaining time after the change is positive, setInitialDoubleSupportLength iff the robot is in single support or the phase in progress is not shortened beyond now (up to epsilon), the foot state setters iff the state has three entries, updateFeetStates iff no foot is flying or the step vector holds the first step and some time remains; the other setters always. Each call changes only what it names: a new duration lengthens or shortens the phase in progress so that the time already spent in it is kept; updateTimeline keeps the phase in progress while time remains and otherwise moves to the phase planned next, changes no foot and no setting, and gives the planned phases the configured durations; updateFeetStates takes the feedback period off the remaining time and moves at most the flying foot. Negative double support lengths are accepted in single support (violation of the durations being meaningful): the next plan that stops then reads outside the timeline.", "quantifier": "all histories of calls of the feet supervisor, all arguments", "why_tests_cant": "Acceptance and frame conditions must hold in every reachable state and for all real arguments.", "anchors": ["src/humanoid_feet_supervisor.cpp: setNbSamples, setSamplingPeriod, setStepPeriod, setInitialDoubleSupportLength, setMove, set*Foot*, updateTimeline, updateFeetStates"]}
{"id": "C62", "title": "What the queries of the feet supervisor answer", "statement": "In every history of calls, the support foot state is that of the support foot in single support, of the left foot in the initial double support of a walk, and the mean of both feet when standing. After updateTimeline the kinematic polygon of step i is defined exactly for the planned steps, whose number is the number of single supports that end in the plan, and is the polygon of the foot of the i-th single support of the plan. Violated between updates: after a stop request in double support the query of a planned step aborts until the next update.", "quantifier": "all histories of calls of the feet supervisor, all step numbers", "why_tests_cant": "Must hold for every plan, of any length, after any history.", "anchors": ["src/humanoid_feet_supervisor.cpp: getSupportFootStateX, getSupportFootStateY, getKinematicConvexPolygon, getNbPreviewedSteps"]}
{"id": "C63", "title": "Which calls the humanoid walk generator accepts and what each changes", "statement": "In every history of calls, the feet of the generator are in a state that the feet supervisor reaches by its own calls and its centre of mass is in a state that the inverted pendulum model reaches by its own calls. Each setter returns exactly on a domain that can be read off the settings: a number of samples or a sampling period iff it is positive, the step period iff it is positive, not shorter than the sampling period (up to epsilon) and leaves time in the single support in progress, the double support length as for the feet supervisor, states iff they have three entries, the vertical state of the centre of mass iff it has three entries and no velocity and acceleration (any height, even a negative one), the velocity reference iff its length is twice the number of samples, and the weights iff the weights in force before the call are not negative (the check looks at the old ones); the other setters always. Each call, solve included, changes only what it names. Violated: setNbSamples keeps the velocity reference of the old length, and with a positive velocity weight solve can then never return until the reference is set again.", "quantifier": "all histories of calls of the humanoid walk generator, all arguments, all answers of the solver", "why_tests_cant": "Acceptance and frame conditions must hold in every reachable state and for all real arguments.", "anchors": ["src/humanoid_walkgen.cpp: HumanoidWalkgen setters, solve", "src/humanoid_feet_supervisor.cpp", "src/lip_model.cpp"]}
{"id": "C64", "title": "What a solve of the humanoid walk generator starts from, and that it does not matter", "statement": "On the first solve after construction or after setMove in double support, the decision vector is filled, at every sample, with the present centre of pressure relative to the left foot; otherwise it keeps the centres of pressure of the previous solution and its steps, without the one that has just been completed. With a positive jerk weight all minimisers of the problem stand for the same jerks at every sample (and, with a positive centering weight, the same centres of pressure); and these jerks do not depend on the centres of pressure the problem is linearised around, as long as no change reaches the value 10^11 taken for infinity.", "quantifier": "all histories of calls, all decision vectors with the same steps, all minimisers of the problems", "why_tests_cant": "Independence of the starting point ranges over all real vectors and all minimisers.", "anchors": ["src/humanoid_walkgen.cpp: HumanoidWalkgen::solve, firstCallSinceLastDS_, setMove, convertCopInLFtoComJerk", "src/humanoid_feet_supervisor.cpp: updateTimeline"]}
{"id": "C65", "title": "Which calls a foot accepts, what each changes, and the curve of an update", "statement": "A foot is built iff the number of samples and the sampling period are positive; these two setters have the same condition; the other setters always return. An update of a coordinate returns iff the state of that coordinate has three entries and the duration is not zero, so in every history in which the states given have three entries no update with a non zero duration is refused. Each call changes only what it names. An update with a positive duration T puts the coordinate on the curve that starts in its current state (position, velocity, acceleration), is in the target state at T, is twice continuously differentiable and is a cubic polynomial on each third of the duration, read at the given time; there is exactly one such curve. Violated: a state of another size is accepted by the setter, and the program stops only at the next update.", "quantifier": "all states of a foot, all calls and arguments, all histories, all pairs of end states, durations and times", "why_tests_cant": "Uniqueness of the curve and the frame conditions range over all real states, durations and times.", "anchors": ["src/model/humanoid_foot_model.cpp: HumanoidFootModel", "mpc-walkgen/model/humanoid_foot_model.h", "src/interpolator.cpp: Interpolator"]}
{"id": "C66", "title": "Rounding does not change the schedule of the steps", "statement": "Run the feet supervisor in an arithmetic in which every operation is rounded, with the standard error bound (relative error u, absolute error eta near zero; IEEE 754 single and double precision are instances). Let the sampling period, the step period and the initial double support be whole numbers of feedback periods, and let the rounding errors of one phase and one horizon add up to less than the tolerance 0.0001 of the comparisons. Then after every history of calls (settings of the feet, move commands, any number of solves), of any length and with any numbers in the calls, it has returned from exactly the calls the exact supervisor returns from, and it has the same sequence of support phases, the same number of planned steps, the same assignment of samples to phases and steps and the same number of feedback periods before the next sample; the remaining time of the phase differs by less than the tolerance, so errors do not build up over a long walk. In particular, with the settings of a walk, no assertion fires and no container is read out of range in the rounded run. The same holds of the whole humanoid walk generator: a new one in rounded and a new one in exact arithmetic that are set up with these settings and get the same calls, with any references, states, weights, polygons and heights and with any two solvers, have the same plan and decision vectors of the same size whenever both return, and the next solve updates the timeline with the same outcome and uses the same preview of the dynamics.", "quantifier": "all rounding functions with the error bound, all numbers of samples up to 16384, all settings that are whole numbers of feedback periods and fine enough, all pairs of histories of calls of the same shape, of any length; for the generator, all calls, solvers and references", "why_tests_cant": "A test runs one history in one precision. That the accumulated error of a timer never crosses a comparison must be shown for all settings and all histories.", "anchors": ["src/humanoid_feet_supervisor.cpp: HumanoidFeetSupervisor", "mpc-walkgen/constant.h: EPSILON", "mpc-walkgen/type.h: Type", "src/humanoid_walkgen.cpp: solve, setMove, setNbSamples, setSamplingPeriod, setStepPeriod"]}
{"id": "C67", "title": "An exact solve applies the best motion", "statement": "Call a motion any choice of centres of pressure, steps and jerks of the centre of mass over the horizon that fits the physics: at each sample the jerks bring the centre of pressure of the pendulum where the plan puts it, relatively to the foot on the ground at that time. If the solver returns a minimiser of the problem it is given and some motion respects the constraints that are switched on, then after a call of solve on a humanoid walk generator the plan and the jerks are a motion that respects the constraints, no motion that does is cheaper (velocity tracking, centering of the CoP and jerks, with their weights), the centre of mass has moved for the feedback period under its first jerks, and the feet follow its steps. If the weights of the jerks and of the centering are positive there is only one best motion, two exact solvers leave the generator in the same state, and two walks that differ only in which exact solver is used are identical after any number of calls. During every walk (as in C55) the call of solve is one to which this applies.", "quantifier": "all reachable generators, all solvers that are exact on the problems they are given, all competing motions, all walks of any length", "why_tests_cant": "Optimality is over a continuum of motions, and the comparison of walks is over all histories and all solvers.", "anchors": ["src/humanoid_walkgen.cpp: solve", "src/humanoid_walkgen.cpp: convertCopInLFtoComJerk", "src/function/humanoid_cop_constraint.cpp: HumanoidCopConstraint", "src/function/humanoid_foot_constraint.cpp: HumanoidFootConstraint"]}
{"id": "C68", "title": "The centre of pressure is under the feet, and steps land within reach", "statement": "In a walk of the humanoid generator whose steps last two samples or more, with the centre of pressure constrained, if the solver respects the constraints of the problem it is given, then whenever the state is that of a sample the centre of pressure of the robot (computed from its centre of mass and acceleration) is in the polygon of the feet that are on the ground at that time, at the places where the feet really are: the polygon of the supporting foot in single support, and the polygon made of both feet in double support. With constraints on the feet, a foot that lands is within the reach of the other foot. One case is excluded, and it is a defect: when the step that ends the walk lands, the polygon in use is that of the feet as the previous plan had them, so the centre of pressure is in it only once displaced by as much as the last call changed the step, and it may be out of the polygon of the feet.", "quantifier": "all walks of any length and with any permitted calls between the solves, all solvers that respect the constraints", "why_tests_cant": "It must hold at every sample of every walk, for every history of references, stops and starts, and every solver.", "anchors": ["src/humanoid_walkgen.cpp: solve", "src/function/humanoid_cop_constraint.cpp: HumanoidCopConstraint", "src/function/humanoid_foot_constraint.cpp: HumanoidFootConstraint", "src/model/humanoid_foot_model.cpp: updateFootFeedback", "src/model/humanoid_foot_supervisor.cpp: updateFeetStates", "src/model/humanoid_foot_supervisor.cpp: getCopConvexPolygon"]}
{"id": "C69", "title": "The motion limits along a run", "statement": "Run a trajectory generator, or the base of a Zebulon generator, with its motion constraints on and a feedback period f not longer than the sampling period T, with a solver that respects the constraints it is given, changing references, weights, configuration or the number of samples between the calls of solve as one likes. If the state is within the limits at the start then, at every instant of the run and not only at the samples, the jerk and the acceleration are within their limits. The velocity exceeds its limit by at most jerkLimit*T*(T-f)/2 when a call returns (so not at all when f = T) and by at most jerkLimit*(T-f/2)^2/2 at any instant. The velocity limit itself is not kept when f < T, nothing is kept when f > T (which solve accepts), and a run with an exact solver may lead itself to a state from which no admissible motion exists.", "quantifier": "all reachable generators, all runs of any length, all solvers that respect the constraints, all instants", "why_tests_cant": "The bound is on a continuum of instants of every run; a test sees a few samples of a few runs.", "anchors": ["src/trajectory_walkgen.cpp: solve", "src/function/trajectory_motion_constraint.cpp: MotionConstraint", "src/zebulon_walkgen.cpp: solve", "src/function/zebulon_base_motion_constraint.cpp: BaseMotionConstraint"]}
{"id": "C70", "title": "The walk does not depend on where the robot is", "statement": "Take a humanoid walk generator and a second one in the same situation elsewhere: feet, planned steps and centre of mass are (a, b) further and every other member is the same; before walking, giving the positions of the feet and of the centre of mass, (a, b) further, makes such a second generator. Make the same calls on both, the positions given by the user being (a, b) further for the second. Then each solve poses exactly the same problem to the solver, each call succeeds on one when it does on the other, and everything read from the second is what is read from the first, (a, b) further: same phases, times, heights, velocities and accelerations. This holds for every walk whose horizon is longer than a step. It holds for any other history as long as no call changes the number of samples while steps are planned, no first step appears in the preview during a single support, and the time before the next phase is not exactly a number of sampling periods plus the tolerance: in each of these three cases the place of the robot does matter.", "quantifier": "all displacements, all reachable generators, all sequences of calls, all solvers", "why_tests_cant": "A test compares a few runs at a few places; a position relative to the wrong origin shows only in the configurations that use it.", "anchors": ["src/humanoid_walkgen.cpp: solve, convertCopInLFtoComJerk", "src/humanoid_feet_supervisor.cpp: updateTimeline, enlargeStepVec, computeSelectionMatrix, computeDSCopConvexPolygon, updateFeetStates", "src/function/humanoid_cop_constraint.cpp", "src/function/humanoid_foot_constraint.cpp", "src/function/humanoid_lip_com_velocity_tracking_objective.cpp", "src/function/humanoid_cop_centering_objective.cpp"]}
{"id": "C71", "title": "Which calls the trajectory generator accepts and what each changes", "statement": "A new trajectory generator has one sample of 1 s, is at rest at the origin, has limits of 1, references at 0, no weight and no motion constraint. Whatever was called before, each setter changes exactly what it is named after and nothing else that the user sets or reads, except that setting the number of samples also resets the planned jerks; the references keep their old length. A solve that returns changes only the planned jerks and the state, which moves for the feedback period under the first planned jerk. The calls that return are exactly those with a positive number of samples or period, limits that are not negative, references of the length of the horizon, a state of three numbers, velocity and jerk weights that are not negative, and the solves with a positive feedback period and references of the length of the horizon; every other call stops the program by an assertion. There is no hidden state: two generators with the same settings and the same planned jerks pose problems with the same costs and the same admissible motions, whatever calls led to them. The place does not matter either.", "quantifier": "all sequences of public calls, all arguments, all solvers", "why_tests_cant": "A setter that writes the wrong member, or a cached matrix that is not rebuilt, is visible only after particular sequences of calls, of which there is no bound.", "anchors": ["src/trajectory_walkgen.cpp: TrajectoryWalkgen and every public method", "src/model/no_dynamic_model.cpp", "src/function/trajectory_jerk_minimization_objective.cpp", "src/function/trajectory_position_tracking_objective.cpp", "src/function/trajectory_velocity_tracking_objective.cpp", "src/function/trajectory_motion_constraint.cpp"]}
{"id": "C72", "title": "The humanoid walk generator always has an admissible motion", "statement": "When solve poses its problem there is a motion that satisfies all constraints that are switched on, provided that: the polygons are made of vertices in counter clockwise order, none further than 5 km and no side almost along an axis; the plan and the support foot are not further than 10 km; and, if the steps are constrained, the kinematic polygons are rectangles or every step of the present plan but the last is within reach of the one before. Hulls that the program computes from separated points are such polygons. So, with an exact solver, each call of solve applies the best motion, keeps the centre of pressure under the feet at the samples and lands the feet within reach, without assuming that the problem can be solved.", "quantifier": "all generators, polygons, plans, numbers of samples and of steps; for the last part all calls of solve in all walks with exact solvers", "why_tests_cant": "Whether the constraints leave anything depends on polygons, plan and horizon; a test sees only the problems of its own runs, and the solver's failure is not reported.", "anchors": ["src/humanoid_walkgen.cpp: solve", "src/function/humanoid_cop_constraint.cpp: computeConstantPart, getFunction, getBounds", "src/function/humanoid_foot_constraint.cpp: getFunction, getBounds, computeBoundsVectors", "src/model/humanoid_feet_supervisor.cpp: getCopConvexPolygon, getKinematicConvexPolygon"]}
{"id": "C73", "title": "The integrated state does not run away from the reported jerks", "statement": "In rounded arithmetic with relative error u and absolute error eta, one update of a state is off the exact motion under the jerk by at most 7u, 6u and 3u times the sum of the magnitudes of the terms of the position, velocity and acceleration (plus small multiples of eta). After n solves with the same feedback period, and any other calls that do not set the state in between, the state that getState returns differs from the exact motion under the jerks that were reported by at most: n times that error for the acceleration, with a term in n^2 for the velocity and in n^3 for the position. The same holds for the centre of mass of the humanoid generator and for the base and the body of the Zebulon generator, along both axes. In single precision, ten seconds of fifty solves a second within 10 m, 2 m/s, 10 m/s^2 and 200 m/s^3 are off by less than 2 cm, 2 cm/s and 1 mm/s^2.", "quantifier": "all roundings with a relative and an absolute error (among them float and double), all states, solvers, references, limits, feedback periods up to one second, and all histories of calls", "why_tests_cant": "The error adds up over the whole history and depends on every jerk; a test compares a few states with a tolerance.", "anchors": ["src/tools.cpp: ConstantJerkDynamic::updateState", "src/model/no_dynamic_model.cpp: updateState", "src/trajectory_walkgen.cpp: solve, getState, getJerk", "src/model/lip_model.cpp: updateStateX, updateStateY", "src/humanoid_walkgen.cpp: solve", "src/zebulon_walkgen.cpp: solve", "src/model/zebulon_base_model.cpp: updateStateX, updateStateY"]}
{"id": "C74", "title": "The Zebulon generator behaves the same wherever the robot is", "statement": "Move the base, the body and the position reference of a Zebulon generator by (a, b) in the plane, and shift the positions given by later calls (states, position reference, body and base trajectories) by the same amount. Then every call returns or fails alike, the solver is given the same quadratic program, solve returns the same flag and plans the same jerks, and the states are the same moved by (a, b). The robot can be put there with the setters at any time. The one exception is a base whose mass is positive and at most 1/10000: it counts in the total mass but not in the centre of pressure, so that the gradient handed to the solver depends on the distance to the origin whenever the centre of pressure objective is used.", "quantifier": "all displacements, all generators reached by calls that return, all later histories of calls, all solvers; masses of the base that are zero or above 1/10000 (below, the property is refuted for every reached generator that uses the centre of pressure objective)", "why_tests_cant": "It compares two runs for every displacement and every history; tests run near the origin and with one mass.", "anchors": ["src/zebulon_walkgen.cpp: solve, setPosRefInWorldFrame, setBaseStateX, setComStateX, setComAndCopRefInWorldFrame", "src/function/zebulon_cop_centering_objective.cpp: getGradient, setCopRefInWorldFrame", "src/function/zebulon_com_centering_objective.cpp: getGradient", "src/function/zebulon_cop_constraint.cpp: getFunction", "src/function/zebulon_com_constraint.cpp: getFunction", "src/function/zebulon_base_position_tracking_objective.cpp: getGradient", "src/function/zebulon_tilt_minimization_objective.cpp: getGradient"]}
{"id": "C75", "title": "The trajectory generator does not depend on the origin or on the direction of its axis", "statement": "Move the state and the position reference of a trajectory generator by a, and shift the positions given by later calls by a: the solver is given the very same quadratic program, every call returns or fails alike, the jerks are the same and the positions are a further on. Two setter calls put a generator there. Reverse the axis instead, that is, give the opposite states and references, with the same limits, weights and periods: every call returns or fails alike, and the state and the jerks are the opposite ones, for a solver that answers the reversed problems with the opposite answers. With motion limits on, a positive jerk weight and some admissible motion, any two exact solvers give opposite plans: a robot sent to the left moves as the mirror image of one sent to the right.", "quantifier": "all displacements, all generators reached by calls that return (for reversed histories: all generators), all later histories of calls, all solvers; for the last sentence all pairs of exact solvers", "why_tests_cant": "It compares two runs for every displacement, history and solver; a test that drives the robot one way near the origin says nothing about the other way.", "anchors": ["src/trajectory_walkgen.cpp: solve, setState, setPosRefInWorldFrame, setVelRefInWorldFrame, getState, getJerk", "src/function/trajectory_position_tracking_objective.cpp: getGradient", "src/function/trajectory_velocity_tracking_objective.cpp: getGradient", "src/function/trajectory_jerk_minimization_objective.cpp: getGradient", "src/function/trajectory_motion_constraint.cpp: getFunctionInf, getFunctionSup, getGradient", "src/model/no_dynamic_model.cpp: updateState"]}
{"id": "C76", "title": "A robot that already moves as asked goes on doing so", "statement": "Let the state of a trajectory generator have velocity v and no acceleration, let the references with a positive weight be those of that motion (velocity v; position reached after 1, 2, ... sampling periods), let the jerk weight be positive and let the motion be within the limits (or, without limits, the stored plan be within 1e11). Then an exact solver plans no jerk at all: getJerk is 0, and getState is the state moved by v times the feedback period. Solving again and again, with any feedback periods and any exact solvers, keeps the velocity for ever; with a weight on positions and a reference that stays where the robot stands, the robot stands still for ever. When the position reference is renewed before each solve with the course as seen from the present time, the robot follows it exactly at any velocity allowed.", "quantifier": "all velocities, horizons, periods, weights with a positive jerk weight, limits, all generators reached by calls that return, all sequences of solves with any feedback periods and any exact solvers, with no bound on their number", "why_tests_cant": "A drift or an oscillation about the reference can take any number of solves to show, and may appear only for some horizon, weight or period.", "anchors": ["src/trajectory_walkgen.cpp: solve, setPosRefInWorldFrame, getState, getJerk", "src/function/trajectory_position_tracking_objective.cpp: getGradient", "src/function/trajectory_velocity_tracking_objective.cpp: getGradient", "src/function/trajectory_jerk_minimization_objective.cpp: getGradient", "src/function/trajectory_motion_constraint.cpp: getFunctionInf, getFunctionSup", "src/model/no_dynamic_model.cpp: updateState"]}
