{"id": "C01", "title": "keepOnlyPresentStep keeps exactly the step in force", "statement": "FootPrint::keepOnlyPresentStep(t) succeeds exactly when some stored step has impactTime <= t. On success the list holds one step: the one with position, angle and impact time of the most recently stored step with impactTime <= t (the step with the greatest such impact time when the list is ordered). On failure the list is unchanged.", "quantifier": "every step list, ordered or not, and every query time", "why_tests_cant": "the position of the cut depends on an unbounded list and a real-valued time; a test fixes a handful of lists", "anchors": ["src/FootPrint.cpp: FootPrint::keepOnlyPresentStep, FootPrint::addStep, FootPrint::clearSteps"]}
{"id": "C02", "title": "Foot print histories stay well formed", "statement": "After any sequence of public FootPrint operations starting from an empty foot print, every stored step has a non-negative impact time, and if every addStep time was not before the last stored one then the list is ordered by impact time. A refused addStep changes nothing. The number of stored steps is what the accepted operations account for.", "quantifier": "every finite sequence of addStep, dropPastSteps, keepOnlyPresentStep, clearSteps, clearLastStep calls with any arguments", "why_tests_cant": "histories are unbounded; order and sign invariants can be broken only by some particular interleaving of calls", "anchors": ["src/FootPrint.cpp: addStep, dropPastSteps, keepOnlyPresentStep, clearSteps, clearLastStep, numberOfSteps"]}
{"id": "C03", "title": "Step and unicycle pose determine each other", "statement": "If a step is added from a unicycle pose then reading the unicycle pose back from that step gives the same position and angle, and adding a step from the pose read back reproduces the step, whatever the foot offset and yaw offset.", "quantifier": "every unicycle pose, foot offset, yaw offset and impact time", "why_tests_cant": "a round trip through sine and cosine over all real angles", "anchors": ["src/UnicycleFoot.cpp: addStepFromUnicycle, getUnicycleStateFromStep, getUnicycleAngleFromStep, getFootPositionFromUnicycle"]}
{"id": "C04", "title": "A parallel step really is parallel", "statement": "After a successful addParallelStep both feet map back to the same unicycle pose, and with the planner's offsets the distance between the two feet is exactly the nominal width.", "quantifier": "every pose of the other foot, every pair of offsets and yaw offsets", "why_tests_cant": "geometric identity over all real poses", "anchors": ["src/UnicycleFoot.cpp: addParallelStep", "src/UnicyclePlanner.cpp: initializePlanner"]}
{"id": "C05", "title": "Step admissibility does not depend on the world frame", "statement": "Moving the whole scene (both feet, the unicycle pose) by any planar rotation and translation changes neither the relative foot position used for the length and width limits, nor the one used for the backward limit, nor the tiny-step decision, nor the cost.", "quantifier": "every rigid planar motion, every scene", "why_tests_cant": "invariance under a continuous group", "anchors": ["src/UnicyclePlanner.cpp: get_rPl, get_newStepRelativePosition", "src/UnicycleFoot.cpp: isTinyStep"]}
{"id": "C06", "title": "Constraint check equals the documented limits", "statement": "The planner's feasibility test accepts a candidate step exactly when: the feet are closer than the maximum length, the left foot lies further to the left of the right one than the minimum width, the heading change is below the maximum, the new position is inside the free-space ellipse if one is set, and, if the new foot lies behind the stance foot, their distance is below the backward maximum. A limit that was never set does not restrict.", "quantifier": "every candidate, every history of limit setters", "why_tests_cant": "five limits combine over a continuous domain; boundaries are strict", "anchors": ["src/UnicycleOptimization.cpp: areConstraintsSatisfied, MaxLength, MinWidth, MaxAngle, StepInEllipsoid, MaxLengthBackward"]}
{"id": "C07", "title": "Limit and weight setters either take effect or change nothing", "statement": "For every public setter of the planner: if it returns true the new value is the one used by the next plan; if it returns false no setting has changed.", "quantifier": "every setter, every argument, every history of previous calls", "why_tests_cant": "a partial update is visible only after a particular failing call followed by a later plan", "anchors": ["src/UnicyclePlanner.cpp: setMaxStepLength, setCostWeights, setStepTimings, setWidthSetting, setMaximumIntegratorStepSize, setSlowWhenTurnGain", "src/UnicycleOptimization.cpp: setCostWeights", "src/UnicycleNavigationController.cpp: setTimeStep"]}
{"id": "C08", "title": "Controllers never exceed the configured speeds", "statement": "Once saturations have been set, whatever the raw controller asks for, the commanded angular velocity is within plus or minus the maximum, the forward velocity lies between minus the backward factor times the limit and the limit (the limit shrinking with the turning rate), and the lateral velocity within the sideways factor times the maximum. Commands already inside the limits pass unchanged.", "quantifier": "every raw command, every accepted history of setters", "why_tests_cant": "continuous inputs and arbitrary setter histories", "anchors": ["src/UnicycleBaseController.cpp: saturate, doControl, setSaturations, setSlowWhenTurnGain, setSlowWhenBackwardFactor, setSlowWhenSidewaysFactor"]}
{"id": "C09", "title": "The integrated unicycle cannot outrun its limits", "statement": "Along any forward-Euler rollout of the controlled unicycle the heading changes by at most max angular velocity times elapsed time and the position by at most the speed bound times elapsed time, for any controller and any number of integration steps.", "quantifier": "every number of integration steps, every controller, every initial pose", "why_tests_cant": "unbounded number of steps; needs induction", "anchors": ["src/ControlledUnicycle.cpp: dynamics", "src/UnicycleBaseController.cpp: doControl"]}
{"id": "C10", "title": "Direct control stands still until released", "statement": "While time is before the deactivation end time the direct controller commands zero velocity, so the integrated unicycle does not move; from then on it commands exactly the requested velocities (saturated).", "quantifier": "every deactivation time, requested velocity and sampling of time", "why_tests_cant": "holds at every instant of every rollout", "anchors": ["src/UnicycleDirectController.cpp: doUnicycleControl, setInactiveUntil, setConstantControl"]}
{"id": "C11", "title": "Person-following references are kept in time order and none is lost", "statement": "After any sequence of accepted setDesiredPoint calls the stored reference is ordered by start time and is a rearrangement of the initial dummy point and all accepted points. Points with negative start time are refused and change nothing.", "quantifier": "every sequence of insertions in every order", "why_tests_cant": "insertion orders grow factorially", "anchors": ["src/PersonFollowingController.cpp: setDesiredPoint, clearDesiredTrajectory"]}
{"id": "C12", "title": "Reference lookup is piecewise linear interpolation", "statement": "getDesiredPoint(t) fails exactly when t < 0, no point is stored, or t precedes the first point. Otherwise, with distinct start times, it returns the stored value at a stored start time, the linear interpolation between the two neighbouring points in between, and the last value afterwards. The returned value always lies between the neighbouring values.", "quantifier": "every stored reference and every query time", "why_tests_cant": "continuum of query times, unbounded lists", "anchors": ["src/PersonFollowingController.cpp: getDesiredPoint, interpolateReferences, getDesiredTrajectoryInitialTime"]}
{"id": "C13", "title": "Forgetting the past does not change the future reference", "statement": "A successful clearDesiredTrajectoryUpTo(T) leaves the result of getDesiredPoint(t) unchanged for every t >= T, and makes every t < T fail.", "quantifier": "every stored reference, every T and every later t", "why_tests_cant": "relates two lookups over all later times", "anchors": ["src/PersonFollowingController.cpp: clearDesiredTrajectoryUpTo, getDesiredPoint"]}
{"id": "C14", "title": "Person-following law realises the commanded point velocity", "statement": "With unsaturated outputs the velocity of the tracked point induced by the commanded forward and angular velocity equals the desired velocity minus gain times the tracking error, for any heading and any admissible person distance, so the tracking error decays.", "quantifier": "every heading, person distance with non-zero x, gain and reference", "why_tests_cant": "identity over all real headings; the closed loop is a statement about derivatives", "anchors": ["src/PersonFollowingController.cpp: doUnicycleControl, getPersonPosition, setPersonDistance, setGain"]}
{"id": "C15", "title": "The person-following reference stays in the free space", "statement": "When a free-space ellipse has been accepted, the point tracked by the person-following controller is always inside that ellipse, whatever the desired point, the unicycle pose, the inner offset and the conservative factor.", "quantifier": "every ellipse, desired point, unicycle pose, offsets, conservative factor", "why_tests_cant": "needs convexity and projection facts over the plane", "anchors": ["src/PersonFollowingController.cpp: getDesiredPointInFreeSpaceEllipse, setFreeSpaceEllipse", "src/FreeSpaceEllipse.cpp: projectPointInsideEllipse"]}
{"id": "C16", "title": "A refused free-space ellipse leaves the previous one in force", "statement": "If setFreeSpaceEllipse or setInnerFreeSpaceEllipseOffsets returns false then the free space used afterwards is the one used before.", "quantifier": "every ellipse and offset, every history", "why_tests_cant": "only visible after a failing call", "anchors": ["src/PersonFollowingController.cpp: setFreeSpaceEllipse, setInnerFreeSpaceEllipseOffsets"]}
{"id": "C17", "title": "Ellipse membership is the geometric one", "statement": "For an ellipse set from semi-axes a, b, angle and centre, isPointInside holds exactly for the points whose coordinates (u,v) along the ellipse axes satisfy (u/a)^2+(v/b)^2 <= 1. An ellipse that is not set contains every point. Sizes below 1e-10 are refused and leave the ellipse unchanged.", "quantifier": "every ellipse and every point of the plane", "why_tests_cant": "continuum of points and shapes", "anchors": ["src/FreeSpaceEllipse.cpp: setEllipse, isPointInside, computeGenerators"]}
{"id": "C18", "title": "Projection lands inside and moves only outside points", "statement": "projectPointInsideEllipse returns the point itself when it is inside, and otherwise a point on the ellipse boundary. If the line through the projection centre and the point is not nearly axis-parallel in ellipse space (or is exactly axis-parallel) and meets the ellipse, the result lies on that line and is its intersection closest to the point.", "quantifier": "every ellipse, point and projection centre", "why_tests_cant": "continuum; several branches of the intersection code", "anchors": ["src/FreeSpaceEllipse.cpp: projectPointInsideEllipse, getClosestIntersectionsWithLine, getIntersectionsWithLine"]}
{"id": "C19", "title": "Line intersections are sound and complete", "statement": "When getIntersectionsWithLine returns true both points lie on the ellipse and, off the nearly-axis-parallel band, on the line; every common point of line and ellipse is one of the two. When it returns false for distinct line points, line and ellipse do not meet.", "quantifier": "every ellipse and every pair of points", "why_tests_cant": "completeness is a for-all statement over points", "anchors": ["src/FreeSpaceEllipse.cpp: getIntersectionsWithLine"]}
{"id": "C20", "title": "An ellipse can be rebuilt from its image matrix", "statement": "Passing the image matrix and centre of any set ellipse back to the matrix form of setEllipse is accepted and gives the same set of points.", "quantifier": "every ellipse", "why_tests_cant": "the defect appears only for one half of the angles", "anchors": ["src/FreeSpaceEllipse.cpp: setEllipse(const MatrixFixSize&, const Vector2&), imageMatrix"]}
{"id": "C21", "title": "The tangent direction is a function of the ellipse and the point", "statement": "getTangentVector returns a unit vector tangent to the ellipse at the given boundary point, depending only on its inputs.", "quantifier": "every ellipse and boundary point", "why_tests_cant": "reading an uninitialised matrix entry is invisible when memory happens to hold zero", "anchors": ["src/FreeSpaceEllipse.cpp: getTangentVector"]}
{"id": "C22", "title": "Navigation never reads outside the path", "statement": "After a path has been accepted, every later sequence of control queries, feedback updates and path changes reads only existing poses of the current path, starting with the second pose; a control query before any accepted path does not read outside either.", "quantifier": "every path, every sequence of calls and feedback values", "why_tests_cant": "index safety over unbounded call sequences", "anchors": ["src/UnicycleNavigationController.cpp: computeDesiredVelocities, setNavigationPath, doUnicycleControl"]}
{"id": "C23", "title": "Navigation advances monotonically and stays stopped at the goal", "statement": "Between path changes the target pose index never decreases and grows by at most one per control query. Once the controller has stopped at the last pose it commands zero velocity at every later query until a new path is given.", "quantifier": "every sequence of feedback and control queries", "why_tests_cant": "temporal property over unbounded sequences", "anchors": ["src/UnicycleNavigationController.cpp: computeDesiredVelocities"]}
{"id": "C24", "title": "Navigation commands respect its own limits", "statement": "Each commanded angular velocity has magnitude at most the navigation limit, the commanded planar speed is at most the larger of the forward and lateral limits times sqrt 2, and commanded forward and lateral velocity respect the forward and lateral limits before saturation.", "quantifier": "every state, path and setting", "why_tests_cant": "continuous headings; the frame in which the limits are applied matters", "anchors": ["src/UnicycleNavigationController.cpp: computeDesiredVelocities"]}
{"id": "C25", "title": "Navigation heading feedback is normalised", "statement": "Whatever heading is fed back, the heading used by the navigation controller lies in [-pi, pi] and equals the input up to a multiple of 2 pi.", "quantifier": "every real heading", "why_tests_cant": "large accumulated headings are outside usual tests", "anchors": ["src/UnicycleNavigationController.cpp: setUnicycleStateFeedback"]}
{"id": "C26", "title": "Every planned step is admissible", "statement": "Every step that computeNewSteps places on a sampled unicycle pose satisfies all configured limits with respect to the last step of the other foot, lands at least the minimum time after it and not after the end of the horizon.", "quantifier": "every configuration, initial feet, horizon and unicycle trajectory", "why_tests_cant": "the search loop runs over an unbounded number of samples and steps", "anchors": ["src/UnicyclePlanner.cpp: computeNewSteps"]}
{"id": "C27", "title": "Planned feet alternate and impact times increase", "statement": "The steps added by one call of computeNewSteps alternate between the feet and have strictly increasing impact times, all later than the last impact already present; earlier steps are left as they were.", "quantifier": "every configuration, initial feet, horizon, trajectory", "why_tests_cant": "ordering over unbounded loops", "anchors": ["src/UnicyclePlanner.cpp: computeNewSteps, addTerminalStep"]}
{"id": "C28", "title": "The chosen landing time minimises the cost among the feasible samples", "statement": "Each placed step uses a sample whose cost is not larger than that of any feasible sample examined for that step.", "quantifier": "every sequence of examined samples", "why_tests_cant": "argmin over an unbounded search window", "anchors": ["src/UnicyclePlanner.cpp: computeNewSteps", "src/UnicycleOptimization.cpp: UnicycleCost::costEvaluation"]}
{"id": "C29", "title": "Planning terminates", "statement": "For every accepted configuration computeNewSteps returns.", "quantifier": "every accepted configuration and horizon", "why_tests_cant": "non-termination cannot be observed by a finite test; the loop moves time backwards when it places a step", "anchors": ["src/UnicyclePlanner.cpp: computeNewSteps, setPlannerPeriod"]}
{"id": "C30", "title": "Planning with terminal step ends with parallel feet", "statement": "After a successful computeNewSteps with the terminal step enabled, the feet are parallel: they map back to the same unicycle pose, or they differ from it by less than the minimum step length and the minimum angle.", "quantifier": "every configuration, feet, trajectory", "why_tests_cant": "final configuration depends on the whole search", "anchors": ["src/UnicyclePlanner.cpp: addTerminalStep"]}
{"id": "C31", "title": "Standing still synchronises the feet", "statement": "If a successful computeNewSteps adds no step then both feet end with the same last impact time (the later of the two), positions and angles of all steps are unchanged, and the foot that stepped last is not the one to start next unless reset was requested.", "quantifier": "every pair of foot prints and configuration", "why_tests_cant": "conditional on the outcome of the whole search", "anchors": ["src/UnicyclePlanner.cpp: computeNewSteps"]}
{"id": "C32", "title": "Planner configuration invariants", "statement": "After any history of setter calls: minimum <= nominal <= maximum step time, all non-negative; minimum width <= nominal width; all limits non-negative; the limits enforced by the feasibility test are the ones the planner reports to use in its consistency checks.", "quantifier": "every history of setter calls from construction", "why_tests_cant": "history-dependent consistency of two copies of the same setting", "anchors": ["src/UnicyclePlanner.cpp: UnicyclePlanner, setMaxStepLength, setStepTimings, setWidthSetting"]}
{"id": "C33", "title": "Phase vectors and phase boundaries agree", "statement": "After a successful generateFromFootPrints both feet have phase vectors of the same length; the phase boundaries start at 0, never decrease, end at that length, and the phase of each foot is constant between consecutive boundaries.", "quantifier": "every pair of foot prints, sampling time and accepted settings", "why_tests_cant": "unbounded number of steps and samples", "anchors": ["src/UnicycleGenerator.cpp: createPhasesTimings"]}
{"id": "C34", "title": "The feet phases are complementary", "statement": "At every instant exactly one of: one foot swings while the other is in stance; one foot is in switch-in while the other is in switch-out. In particular at least one foot is in contact at all times, and the fixed foot is always in contact.", "quantifier": "every instant of every generated trajectory", "why_tests_cant": "for all instants of all walks", "anchors": ["src/UnicycleGenerator.cpp: createPhasesTimings, fillFeetStandingPeriodsVectors, fillLeftFixedVector"]}
{"id": "C35", "title": "Step timing does not drift", "statement": "The end of the k-th swing phase, converted to time, differs from the planned impact time of that step by at most half a sampling period, for every k.", "quantifier": "every number of steps, every sampling period", "why_tests_cant": "rounding errors could accumulate with the number of steps", "anchors": ["src/UnicycleGenerator.cpp: createPhasesTimings"]}
{"id": "C36", "title": "Swing phases match the foot prints", "statement": "The k-th swing phase belongs to the foot of the k-th planned step; each foot swings exactly once per planned step after its first, in order, so trajectory interpolation never runs out of steps.", "quantifier": "every pair of foot prints", "why_tests_cant": "counting argument over unbounded lists", "anchors": ["src/UnicycleGenerator.cpp: orderSteps, createPhasesTimings"]}
{"id": "C37", "title": "Sample counts never wrap around", "statement": "With accepted settings no unsigned subtraction in the phase computation wraps: switch samples never exceed step samples, and merge point offsets never exceed the end of their switch phase.", "quantifier": "every accepted setting, every pair of foot prints", "why_tests_cant": "needs the interplay of settings and rounding for all values", "anchors": ["src/UnicycleGenerator.cpp: createPhasesTimings, setSwitchOverSwingRatio, setPauseConditions, setMergePointRatio"]}
{"id": "C38", "title": "Merge points are valid double-support instants", "statement": "Every reported merge point is an index of the trajectory; merge points are reported in strictly increasing order; each lies in a double-support phase (or is the instant at which one ends).", "quantifier": "every generated trajectory", "why_tests_cant": "for all walks and merge ratios", "anchors": ["src/UnicycleGenerator.cpp: createPhasesTimings, setMergePointRatio, getMergePoints"]}
{"id": "C39", "title": "Steps are ordered without loss", "statement": "The ordered step sequence used by all generators is a rearrangement of the steps of both feet, sorted by impact time, and when the first two impact times coincide they are listed so that the feet alternate with the first planned step.", "quantifier": "every pair of foot prints", "why_tests_cant": "permutation statement over unbounded lists", "anchors": ["src/UnicycleGenerator.cpp: orderSteps"]}
{"id": "C40", "title": "Phase computation stays inside the step lists", "statement": "Computing the phases never indexes a foot's step list past its end.", "quantifier": "every pair of foot prints", "why_tests_cant": "undefined behaviour that usually has no visible effect", "anchors": ["src/UnicycleGenerator.cpp: createPhasesTimings"]}
{"id": "C41", "title": "Generator settings invariants", "statement": "After any history of setter calls the switch share of a step is strictly between 0 and 1, the terminal switch time positive, nominal step time positive and at most the maximum, and merge ratios within [0,1] in order; refused calls change nothing.", "quantifier": "every history of setter calls", "why_tests_cant": "history-dependent", "anchors": ["src/UnicycleGenerator.cpp: setSwitchOverSwingRatio, setTerminalHalfSwitchTime, setPauseConditions, setMergePointRatio"]}
{"id": "C42", "title": "A failed generation keeps the previous foot prints", "statement": "If generateFromFootPrints or reGenerate returns false the stored foot prints are the ones from before the call.", "quantifier": "every failing call", "why_tests_cant": "depends on the failure point", "anchors": ["src/UnicycleGenerator.cpp: generateFromFootPrints, reGenerate, computeNewStepsFromMeasuredSteps"]}
{"id": "C43", "title": "Measured-step correction edits only what it should", "statement": "reGenerate with measurements replaces position and heading of exactly the corrected feet; the corrected heading equals the measured one up to full turns and is within half a turn of the previous heading; corrected impact times never exceed the new initial time.", "quantifier": "every previous step, measurement and initial time", "why_tests_cant": "angle wrap over all reals; several correction modes", "anchors": ["src/UnicycleGenerator.cpp: editStepFromMeasured, computeNewStepsFromMeasuredSteps"]}
{"id": "C44", "title": "Feet are still and on the ground outside swing", "statement": "At every instant of a non-swing phase the foot pose is the last reached step at height zero with zero velocity and acceleration.", "quantifier": "every instant, every walk", "why_tests_cant": "for all instants of all walks", "anchors": ["src/FeetMinimumJerkGenerator.cpp: interpolateFoot"]}
{"id": "C45", "title": "Swing trajectories stay within bounds and never fail", "statement": "During swing the foot height is between 0 and the step height, the horizontal position is on the segment between the two steps, the yaw between the two yaws, and the interpolation never reports failure, for every accepted apex time and step height.", "quantifier": "every swing length, apex ratio, step height", "why_tests_cant": "depends on rounding of the apex sample for all lengths", "anchors": ["src/FeetMinimumJerkGenerator.cpp: interpolateFoot, minimumJerk, setFootApexTime, setStepHeight"]}
{"id": "C46", "title": "Reported velocities and accelerations are derivatives", "statement": "The minimum-jerk velocity is the time derivative of the position and the acceleration that of the velocity; position starts and ends at the given points with zero velocity and acceleration.", "quantifier": "every duration, pair of end points and time", "why_tests_cant": "statement about derivatives", "anchors": ["src/FeetMinimumJerkGenerator.cpp: minimumJerk"]}
{"id": "C47", "title": "Weights of the two feet are complementary", "statement": "At every instant the weight shares sum to one, their first and second derivatives to zero, and in single support the stance foot carries everything; if the initial share is in [0,1] with zero initial velocity all shares are in [0,1].", "quantifier": "every instant of every generated trajectory", "why_tests_cant": "for all instants; depends on spline behaviour", "anchors": ["src/ZMPTrajectoryGenerator.cpp: computeFootWeightPortion, mirrorWeightPortion"]}
{"id": "C48", "title": "Foot lookup for the global ZMP is total and correct", "statement": "For every instant the backward search for the current step of each foot stays within the ordered steps and finds the latest step of that foot with impact time not after the instant.", "quantifier": "every ordered step list and every instant", "why_tests_cant": "loop with unsigned decrement; termination relies on a precondition established elsewhere", "anchors": ["src/ZMPTrajectoryGenerator.cpp: computeGlobalZMP"]}
{"id": "C49", "title": "The global ZMP lies between the feet", "statement": "At every instant the global ZMP lies on the segment between the two foot ZMPs (after blending with the previous steps in the first phase), and in single support it is the ZMP of the stance foot.", "quantifier": "every instant", "why_tests_cant": "for all instants", "anchors": ["src/ZMPTrajectoryGenerator.cpp: computeGlobalZMP"]}
{"id": "C50", "title": "Initial states are recorded at every merge point", "statement": "The i-th recorded state is the weight, velocity and acceleration at the i-th merge point.", "quantifier": "every list of merge points", "why_tests_cant": "depends on how merge points interleave with phases", "anchors": ["src/ZMPTrajectoryGenerator.cpp: computeFootWeightPortion, getInitialStatesAtMergePoints"]}
{"id": "C51", "title": "ZMP computation writes only inside its buffers", "statement": "With binary64 arithmetic, every index written while computing the local ZMP is smaller than the number of samples.", "quantifier": "every sampling time and terminal switch time", "why_tests_cant": "depends on the rounding of a product followed by a quotient", "anchors": ["src/ZMPTrajectoryGenerator.cpp: computeLocalZMP"]}
{"id": "C52", "title": "CoM height is nominal in double support", "statement": "In every double-support instant the CoM height is the nominal one with zero velocity and acceleration; in single support it follows one bump that starts and ends at the nominal height.", "quantifier": "every instant of every walk", "why_tests_cant": "for all instants", "anchors": ["src/CoMHeightTrajectoryGenerator.cpp: computeNewTrajectories"]}
{"id": "C53", "title": "Single-support DCM obeys the LIPM equation", "statement": "In single support the reported DCM velocity is the derivative of the reported DCM and equals omega times the distance from the constant ZMP.", "quantifier": "every time, boundary condition and omega", "why_tests_cant": "differential equation", "anchors": ["src/DCMTrajectoryGeneratorHelper.cpp: SingleSupportTrajectory"]}
{"id": "C54", "title": "Double-support DCM meets its boundary conditions", "statement": "The double-support polynomial has the requested positions and velocities at both ends, its reported velocity is its derivative, and the reported ZMP is DCM minus velocity over omega.", "quantifier": "every boundary condition and every positive duration", "why_tests_cant": "polynomial identity over reals", "anchors": ["src/DCMTrajectoryGeneratorHelper.cpp: DoubleSupportTrajectory, DoubleSupportTrajectoryMinJerk"]}
{"id": "C55", "title": "The DCM trajectory is continuous and covers the whole walk", "statement": "The sub-trajectories of a generated walk tile the time interval from 0 to the end without gaps, and DCM position and velocity agree at every junction; the DCM starts at the given initial state and ends at rest midway between the final foot ZMPs.", "quantifier": "every number of steps, phase timing and setting", "why_tests_cant": "composition of arbitrarily many pieces", "anchors": ["src/DCMTrajectoryGeneratorHelper.cpp: generateDCMTrajectory, addLastStep, addNewStep, addFirstDoubleSupportPhase"]}
{"id": "C56", "title": "DCM foot weights are shares", "statement": "Weights reported with the DCM trajectory are in [0,1] and sum to one at every instant where the feet ZMPs differ.", "quantifier": "every instant", "why_tests_cant": "for all ZMP positions", "anchors": ["src/DCMTrajectoryGeneratorHelper.cpp: computeFeetWeight"]}
{"id": "C57", "title": "DCM parameter ranges are enforced", "statement": "setAlpha, setStillnessPercentage and setLastStepDCMOffsetPercentage accept exactly the values in [0,1]; setOmega accepts only positive values.", "quantifier": "every argument", "why_tests_cant": "guards that can never fire look fine in tests with valid values", "anchors": ["src/DCMTrajectoryGeneratorHelper.cpp: setAlpha, setStillnessPercentage, setLastStepDCMOffsetPercentage, setOmega"]}
{"id": "C58", "title": "One-shot initial states are used exactly once", "statement": "An initial DCM state or initial weight given by the user is used by the next successful generation and by no later one; after a failed generation it is still pending.", "quantifier": "every sequence of set and generate calls", "why_tests_cant": "history-dependent", "anchors": ["src/DCMTrajectoryGenerator.cpp: computeNewTrajectories, setDCMInitialState", "src/ZMPTrajectoryGenerator.cpp: setWeightInitialState, setPreviousSteps, computeNewTrajectories"]}
{"id": "C59", "title": "No deadlock between concurrent API calls", "statement": "Any number of threads calling any public methods of one generator, its planner and its plug-ins in any order never reach a state where some thread is blocked forever on a mutex.", "quantifier": "every number of threads, every program of calls, every schedule", "why_tests_cant": "exponentially many schedules", "anchors": ["src/UnicycleGenerator.cpp: std::mutex mutex and all lock_guard scopes", "src/UnicyclePlanner.cpp: m_mutex"]}
{"id": "C60", "title": "Generation is atomic with respect to other calls", "statement": "The trajectory produced by generate or reGenerate is computed from the foot prints planned by that same call even when other threads call public methods concurrently; no public method accesses shared settings without holding the lock.", "quantifier": "every schedule", "why_tests_cant": "a race window between two critical sections", "anchors": ["src/UnicycleGenerator.cpp: generate, reGenerate, setMergePointRatio, setPauseActive, disablePauseConditions"]}
{"id": "C61", "title": "Reported saturation limits are those in force", "statement": "getSaturationLimits returns upper bounds of the forward, lateral and angular velocity that doControl can command with the current settings.", "quantifier": "every accepted history of setters and every raw command", "why_tests_cant": "needs all combinations of gains and turning rates", "anchors": ["src/UnicycleBaseController.cpp: getSaturationLimits, doControl"]}
{"id": "C62", "title": "Reported ellipse axes describe the accepted image matrix", "statement": "After setEllipse accepts an image matrix, the reported semi-axes, angle and centre describe the same set of points as the matrix.", "quantifier": "every image matrix", "why_tests_cant": "the check compares one number only; infinitely many matrices pass it", "anchors": ["src/FreeSpaceEllipse.cpp: setEllipse (image matrix), semiMajorAxis, semiMinorAxis, angle"]}
{"id": "C63", "title": "Navigation heads for its target pose", "statement": "While it moves, the navigation controller commands a world velocity that points from the current position to the target pose; it turns the short way towards the target heading and does not turn when the heading already matches.", "quantifier": "every accepted history, state and path", "why_tests_cant": "every position, heading and limit would have to be tried", "anchors": ["src/UnicycleNavigationController.cpp: computeDesiredVelocities"]}
{"id": "C64", "title": "The height of a swinging foot has no jump", "statement": "From the last instant before a swing to the first one after it, the height reported at consecutive instants changes by at most one and a half times the peak vertical speed of the two half curves times the sampling time, whatever the rounding of the apex instant.", "quantifier": "every swing length, apex ratio, step height and sampling time", "why_tests_cant": "the rounding of the apex depends on all of them", "anchors": ["src/FeetMinimumJerkGenerator.cpp: interpolateFoot"]}
{"id": "C65", "title": "Reported ZMP derivatives are those of the ZMP", "statement": "At every instant inside a phase the reported world velocity and acceleration of the ZMP are the first and second time derivatives of the curve the reported positions are sampled from.", "quantifier": "every instant of every generated trajectory", "why_tests_cant": "a derivative is a limit and the curve depends on all steps and offsets", "anchors": ["src/ZMPTrajectoryGenerator.cpp: computeGlobalZMP"]}
{"id": "C66", "title": "The step used for the ZMP is the one the foot stands on", "statement": "In walks whose feet alternate, the step found by comparing impact times with the time of an instant is the step on which the foot stands according to the phases, unless that foot carries no weight.", "quantifier": "every alternating walk and every instant", "why_tests_cant": "the two notions differ by rounding of the impact times; the disagreements are single instants", "anchors": ["src/ZMPTrajectoryGenerator.cpp: computeGlobalZMP", "src/UnicycleGenerator.cpp: createPhasesTimings"]}
{"id": "C67", "title": "In single support the DCM trajectory puts the ZMP under the stance foot", "statement": "At every instant where only one foot is on the ground, the ZMP reported with the DCM trajectory is the world position of the user's ZMP offset on the step that foot stands on.", "quantifier": "every accepted walk and every single-support instant", "why_tests_cant": "depends on the order of the steps, the phases and the sub-trajectory bookkeeping together", "anchors": ["src/DCMTrajectoryGeneratorHelper.cpp: generateDCMTrajectory, addNewStep, addLastStep, addFirstDoubleSupportPhase, evaluateDCMTrajectory", "src/UnicycleGenerator.cpp: orderSteps, createPhasesTimings"]}
{"id": "C68", "title": "alpha distributes the double support between the single supports", "statement": "For every alpha in [0,1] accepted by setAlpha, the DCM curves of two consecutive single supports meet at an instant of the double support between them that divides it in the share alpha.", "quantifier": "every walk and every alpha", "why_tests_cant": "the default value hides the difference", "anchors": ["src/DCMTrajectoryGeneratorHelper.cpp: addNewStep", "include/DCMTrajectoryGenerator.h: setAlpha"]}
{"id": "C69", "title": "Without a given initial state the DCM starts at rest between the feet", "statement": "If no initial DCM state has been set, the first DCM sample has zero velocity and lies midway between the ZMPs of the two feet, each ZMP being the user's offset expressed in its foot frame.", "quantifier": "every pair of initial steps and every offset", "why_tests_cant": "the error is invisible unless feet are turned and offsets set", "anchors": ["src/DCMTrajectoryGenerator.cpp: computeNewTrajectories, setFootOriginOffset"]}
{"id": "C70", "title": "All reported trajectories have one entry per instant", "statement": "After a generation that returns true, the phases, contact states, fixed-foot flags and the trajectories of every attached plug-in (feet, ZMP and weights, DCM and weights, CoM height) all have the same number of entries.", "quantifier": "every sequence of configuration and generation calls of one user, every plan", "why_tests_cant": "The lengths come from independent loops in five classes that round times on their own; tests try single walks with one combination of plug-ins.", "anchors": ["src/UnicycleGenerator.cpp: UnicycleGenerator::generateFromFootPrints", "src/FeetMinimumJerkGenerator.cpp: computeNewTrajectories", "src/ZMPTrajectoryGenerator.cpp: computeNewTrajectories", "src/DCMTrajectoryGenerator.cpp: computeNewTrajectories", "src/CoMHeightTrajectoryGenerator.cpp: computeNewTrajectories"]}
{"id": "C71", "title": "Getters describe one walk", "statement": "At any moment the getters of the generator and of its plug-ins describe the same walk: either the one of the last successful generation or nothing.", "quantifier": "every sequence of calls of one user, with failing generations", "why_tests_cant": "Needs a failure between two plug-ins after an earlier success with a different number of instants; tests stop at the first failure.", "anchors": ["src/UnicycleGenerator.cpp: UnicycleGenerator::generateFromFootPrints", "include/UnicycleGenerator.h: UnicycleGenerator::getFeetStandingPeriods"]}
{"id": "C72", "title": "The cubic spline swing follows the segment between the steps", "statement": "For every accepted setting and every swing of at least one sample the cubic feet generator succeeds with one sample per instant; position and yaw move along the segment between the two steps without ever going back, start at rest on the step left behind and reach the next step at the end of the swing; at the apex time height and pitch are the configured ones. Outside swing the foot is still.", "quantifier": "every history of setter calls, swing length, pair of steps, every walk without empty phases", "why_tests_cant": "continuum of settings; the spline is an external class used through five independent coordinates", "anchors": ["src/FeetCubicSplineGenerator.cpp: interpolateFoot"]}
{"id": "C73", "title": "The cubic spline swing stays between the ground and the step height", "statement": "For every accepted step height, apex time and landing velocity, the height of the swinging foot is never negative and never exceeds the step height.", "quantifier": "every setting, swing length and instant", "why_tests_cant": "the extremes of the spline are not at the interpolation points; default settings hide the error", "anchors": ["src/FeetCubicSplineGenerator.cpp: interpolateFoot, setFootApexTime, setFootLandingVelocity"]}
{"id": "C74", "title": "Planning succeeds exactly when it is possible", "statement": "With a positive period and an integrator that does not fail, computeNewSteps returns true if and only if: the length limits admit the nominal width, the minimum angle is below the maximum, the controller accepts the saturations, 0 <= initTime < endTime, and either both foot prints are empty (and a person to follow has a reference) or both last steps have landed by initTime.", "quantifier": "every history of planner settings, every horizon, every pair of foot prints that are both empty or both not", "why_tests_cant": "the return value depends on a search over continuous time whose branches depend on the path; tests see a few paths", "anchors": ["src/UnicyclePlanner.cpp: computeNewSteps, initializePlanner, getInitialStateFromFeet"]}
{"id": "C75", "title": "Every plan can be turned into trajectories", "statement": "Steps planned from no step or from one step per foot form a walk for the generator: first steps landed by initTime, later ones after it, strictly ordered per foot, impacts at least the minimum step time apart, and the first impact leaves the nominal step time (feet together) or the rest of the minimum step time. Therefore, with settings and sampling time that suit these times, generate on a configured generator returns true whatever the path.", "quantifier": "every configuration of planner, generator and plug-ins, every horizon and unicycle path", "why_tests_cant": "a failure needs an unlucky coincidence of path, period and sampling time; tests use one path", "anchors": ["src/UnicyclePlanner.cpp: computeNewSteps", "src/UnicycleGenerator.cpp: generate, generateFromFootPrints"]}
{"id": "C76", "title": "A walking user is never refused", "statement": "In a working environment (planner limits with room, positive times, integrator succeeding, configured plug-ins, suitable sampling time) a generate followed by any number of reGenerate calls at non-decreasing times, with configuration calls and measured steps in between, returns true every time and never reaches undefined behaviour.", "quantifier": "every such sequence of calls, of any length", "why_tests_cant": "each call starts from the state left by all previous ones; only an invariant covers sequences of any length", "anchors": ["src/UnicycleGenerator.cpp: generate, reGenerate, generateFromFootPrints", "src/UnicyclePlanner.cpp: computeNewSteps", "src/FootPrint.cpp: keepOnlyPresentStep"]}
{"id": "C77", "title": "The reported feet move as rigid bodies", "statement": "The transforms, twists and accelerations returned for the feet belong together: during each swing (for the minimum jerk generator during its rising and its falling half) there is one rigid motion in continuous time whose poses are those of the interpolation, whose linear and angular velocity at every instant are the reported mixed twist and whose linear and angular acceleration are the reported ones; outside swing twist and acceleration are zero and the pose is that of the step.", "quantifier": "every setting, swing length, pair of steps, phase list; both feet generators", "why_tests_cant": "relates sampled values to derivatives of rotations in continuous time; a finite difference test needs tolerances that hide wrong terms", "anchors": ["src/FeetMinimumJerkGenerator.cpp: interpolateFoot", "src/FeetCubicSplineGenerator.cpp: interpolateFoot"]}
{"id": "C78", "title": "Switching to new trajectories at a merge point is seamless", "statement": "If the walk is planned and generated anew without measured steps at the time of a merge point, the new feet trajectories start with the samples that the old ones have there, for both feet generators; the CoM height continues, and so do the weight on each foot and its rate if the state recorded for the merge point is passed on.", "quantifier": "every successful generation in every sequence of calls, every merge point, every setting and every planner outcome", "why_tests_cant": "compares the result of two generations with a planner run in between; the discrete landing instant and the impact time differ by a rounding that only some sampling times show", "anchors": ["src/UnicycleGenerator.cpp: reGenerate, createPhasesTimings, getMergePoints", "src/FootPrint.cpp: keepOnlyPresentStep", "src/FeetMinimumJerkGenerator.cpp: interpolateFoot"]}
{"id": "C79", "title": "The results of the plug-ins fit together", "statement": "For a user who plans and re-plans, after every generation that returns true: the feet step in turns, starting with the one that did not land last; the reported ZMP is the point that one obtains from the reported feet transforms, the ZMPs in the foot frames and the weights (at every instant if no step was corrected, otherwise from the end of the first double support on); and in single support the ZMP belonging to the DCM trajectory is the configured point of the sole that is on the ground according to the feet trajectories.", "quantifier": "every sequence of configuration and generation calls of such a user, every planner outcome and sort result; both feet generators", "why_tests_cant": "the ZMP generator finds the steps by searching impact times, the feet generators by the phases, the DCM generator by the order of the steps; they disagree only for particular roundings and ties", "anchors": ["src/UnicycleGenerator.cpp: orderSteps, generateFromFootPrints, reGenerate", "src/ZMPTrajectoryGenerator.cpp: computeNewTrajectories", "src/DCMTrajectoryGenerator.cpp: computeNewTrajectories", "src/FeetMinimumJerkGenerator.cpp: interpolateFoot", "src/UnicyclePlanner.cpp: computeNewSteps"]}
{"id": "C80", "title": "The phase guarantees survive floating point arithmetic", "statement": "With IEEE double arithmetic, every rounding of the phase computation included: after a successful generateFromFootPrints the phase vectors, boundaries, contacts and fixed foot satisfy what C33, C34 and C36 say; merge points are inside the trajectory, in order and in double support; no unsigned subtraction or conversion goes wrong; and after any history of setter calls the share of the switch phase is between 0 and 1.", "quantifier": "every pair of foot prints, sampling time and history of accepted settings with double arguments", "why_tests_cant": "rounding errors show for single combinations out of 2^64; the guarantee that no count is off by one in the wrong direction needs monotonicity of rounding", "anchors": ["src/UnicycleGenerator.cpp: createPhasesTimings, generateFromFootPrints, setSwitchOverSwingRatio"]}
{"id": "C81", "title": "Step timing hardly drifts in floating point arithmetic", "statement": "With IEEE double arithmetic, if all times are at most B in magnitude, the end of the k-th swing phase (k from 0), converted to time, differs from the planned impact time by at most half a sampling period plus (k+1) * B * 2^-50; and every walk with impacts at least half a sampling period plus B * 2^-49 apart is accepted.", "quantifier": "every number of steps, every sampling period of at least 2^-900 s and B * 2^-50, every history of accepted settings with double arguments", "why_tests_cant": "the accumulated clock error grows with the number of steps; tests run a few steps", "anchors": ["src/UnicycleGenerator.cpp: createPhasesTimings"]}
{"id": "C82", "title": "Setters answer the same for doubles as for exact numbers", "statement": "Every setter with numeric arguments, called with finite doubles, accepts exactly the calls that it would accept in exact arithmetic, whatever overflows or underflows inside it; afterwards every setting of the generator, planner, controllers and plug-ins is within its documented range, also if arguments were infinite (other than a switch-over-swing ratio of +inf and a step length +inf with factor 0).", "quantifier": "every history of setter calls with such arguments, all classes", "why_tests_cant": "the boundary cases are single values out of 2^64 per argument", "anchors": ["src/UnicycleGenerator.cpp: setters", "src/UnicyclePlanner.cpp: setters", "src/FeetGenerator.cpp: setters", "src/CoMHeightTrajectoryGenerator.cpp: setCoMHeightSettings", "src/DCMTrajectoryGenerator.cpp: setters", "src/ControlledUnicycle.cpp, src/PersonFollowingController.cpp: setters"]}
{"id": "C83", "title": "The phase computation neither overflows nor converts out of range", "statement": "If settings and times are finite doubles, B bounds times, period and terminal switch, and the sampling period is at least 2^-900 s and B * 2^-50, then no operation of generateFromFootPrints up to the phases overflows and no conversion to size_t is undefined: the result is the one of unbounded rounded arithmetic, so the guarantees of C80 and C81 hold for what the program computes.", "quantifier": "every pair of foot prints, sampling period, start and history of settings in that envelope", "why_tests_cant": "exponent range effects do not show for everyday values", "anchors": ["src/UnicycleGenerator.cpp: createPhasesTimings, orderSteps, generateFromFootPrints"]}
{"id": "C84", "title": "std::sort is called with a valid comparison", "statement": "The impact times that addStep has accepted (and the times of desired points) are ordered by < as std::sort requires: a strict weak order on the elements.", "quantifier": "every sequence of addStep calls on two foot prints", "why_tests_cant": "a violated precondition of std::sort is undefined behaviour that usually does not show", "anchors": ["src/FootPrint.cpp: addStep", "src/UnicycleGenerator.cpp: orderSteps", "src/PersonFollowingController.cpp: setDesiredPoint"]}
{"id": "C85", "title": "NaN is kept out", "statement": "No accepted setter call leaves a setting that is NaN, and generateFromFootPrints returns false rather than compute with NaN.", "quantifier": "every call with any double, infinities and NaN included", "why_tests_cant": "needs all comparisons of all setters to be looked at with unordered operands", "anchors": ["src/UnicycleGenerator.cpp, src/UnicyclePlanner.cpp, src/FootPrint.cpp and the plug-ins: argument checks"]}
{"id": "C86", "title": "Planning in doubles returns", "statement": "With IEEE double arithmetic for all times, computeNewSteps returns (true or false, no endless loop) for finite initTime and endTime whenever the search period is at least the spacing of the doubles up to endTime (endTime * 2^-52 <= dT), whatever the positions, costs and constraints are and whatever the accepted step timings.", "quantifier": "every history of setter calls without NaN, every finite horizon, every pair of foot prints with accepted impact times, every answer of the geometric computations", "why_tests_cant": "the loop adds a period to a double; whether the sum moves depends on the magnitude of the time, and the search resets its clock to earlier candidates, so progress needs a measure", "anchors": ["src/UnicyclePlanner.cpp: computeNewSteps"]}
{"id": "C87", "title": "Plans in doubles alternate the feet with increasing times", "statement": "With IEEE double arithmetic for all times, after computeNewSteps returned true each new step belongs to the foot that did not step before, impact times compared as doubles strictly increase, steps of the search land after initTime and not after endTime and are at least the minimum step time (as computed) apart, at most two terminal steps follow; if no step was added, the last impact times of the feet are made equal and nothing else changes.", "quantifier": "every history of setter calls without NaN, every finite horizon resolved by the period (for the terminal steps: by the nominal time), every answer of the geometric computations", "why_tests_cant": "a rounding in one sum could place a step before or at the previous one; the set of combinations is too large to try", "anchors": ["src/UnicyclePlanner.cpp: computeNewSteps, addTerminalStep, getInitialStateFromFeet"]}
{"id": "C88", "title": "Plans in doubles can be executed", "statement": "With IEEE double arithmetic for all times: the foot prints left by a computeNewSteps that returned true and started from no step or one step per foot are accepted by generateFromFootPrints with the planner's own initTime; the phase computation fails nowhere, overflows nowhere and converts nothing out of range, provided half a sampling period (plus 2^-48 of the largest time) fits into the minimum step time and into the terminal switch time.", "quantifier": "every history of finite setter arguments, every finite horizon resolved by the search period, every answer of the geometric computations, every sort result", "why_tests_cant": "the two components round differently (one sums periods, the other counts samples), so agreement has to hold for all sums", "anchors": ["src/UnicyclePlanner.cpp: computeNewSteps", "src/UnicycleGenerator.cpp: generateFromFootPrints, createPhasesTimings, orderSteps"]}
{"id": "C89", "title": "The re-planning loop in doubles keeps going", "statement": "With IEEE double arithmetic for all times: after any sequence of setter calls, clearSteps, generate and reGenerate calls (with or without measured steps, failed or not), a generate on at most one step per foot and every reGenerate returns, meets no undefined behaviour, and computes phases whenever the planner found steps; after a call that generated, reGenerate from any later initial time finds a present step in both feet.", "quantifier": "every sequence of calls with finite arguments that fit the settings (search period resolvable at the end time, half a sampling period within minimum step time and terminal switch), every answer of the geometric computations", "why_tests_cant": "the state carried from call to call (stored impact times, starting foot, settings) accumulates rounding; all histories have to be covered", "anchors": ["src/UnicycleGenerator.cpp: generate, reGenerate, computeNewStepsFromMeasuredSteps, generateFromFootPrints", "src/FootPrint.cpp: keepOnlyPresentStep, addStep", "src/UnicyclePlanner.cpp: computeNewSteps"]}
{"id": "C90", "title": "The DCM generator in doubles neither aborts nor loses an instant", "statement": "With IEEE double arithmetic for all times: for phases returned by the phase computation (at most 2^50 samples), a stillness share of at least 2^-50 and at most 1 and a positive omega, no assertion of the DCM generator fails, all sub-trajectories are built, in doubles each begins where the one before ends, they reach from 0 to the last sampling instant, and the iterator over them stays inside; if moreover every sub-trajectory is longer than a sampling period, every sampling instant is evaluated in a sub-trajectory whose domain contains it and the generator succeeds. A stillness of 0, which the setter accepts, can abort the program.", "quantifier": "every history of setter calls without NaN, all phases, sampling periods from 2^-900 to 2^900", "why_tests_cant": "whether an end time recomputed as t1 + (t2 - t1) passes the assertion depends on the last bit for the particular walk", "anchors": ["src/DCMTrajectoryGeneratorHelper.cpp: generateDCMTrajectory, addLastStep, addNewStep, addFirstStep, evaluateDcmTrajectory", "src/DCMTrajectoryGenerator.cpp: computeNewTrajectories"]}
{"id": "C91", "title": "Returned phases are consistent whatever the arithmetic", "statement": "If the phase computation returns at all, then the phase shift instants begin at 0 and never decrease, there are two for each planned step and one at the end, both feet have one phase per sample up to the last instant, the two phases of a sample are complementary, and the phases are exactly those that the order of the steps and the instants describe; this holds for every double including infinities and NaN, every setting and every result of std::sort, even if its precondition is violated.", "quantifier": "every arithmetic, every settings, feet, times and permutation", "why_tests_cant": "NaN and infinities take comparisons into combinations of branches that no test of ordinary values reaches", "anchors": ["src/UnicycleGenerator.cpp: orderSteps, createPhasesTimings, generateFromFootPrints"]}
{"id": "C92", "title": "Foot print objects are independent", "statement": "A FootPrint object used through its methods behaves as its own list of steps whatever is done to other FootPrint objects, through any program that creates, moves, edits and copies them; the constructor that takes a list orders that list by impact time without losing or renaming steps; no program without null pointers meets undefined behaviour.", "quantifier": "every sequence of creations, copies, moves, assignments and method calls on any number of objects", "why_tests_cant": "aliasing through a shared pointer shows only when one object is changed and another one is read later", "anchors": ["src/FootPrint.cpp", "include/FootPrint.h"]}
{"id": "C93", "title": "The initial DCM state that is shown is the one used", "statement": "After a successful generation getDCMInitialState returns the position and velocity from which the DCM trajectory starts, which are the given ones or, if none were given, those of a robot at rest midway between its feet; other settings do not change it.  reGenerate, which looks at this velocity, therefore treats a walk generated without a given state as one that stands: both feet are taken as landed together.", "quantifier": "every session of set and generate calls, every foot print, plug-in and later settings", "why_tests_cant": "depends on the whole history; the value is written as a side effect of a computation", "anchors": ["src/DCMTrajectoryGenerator.cpp: computeNewTrajectories, setDCMInitialState, getDCMInitialState", "src/UnicycleGenerator.cpp: reGenerate, shouldResetTime"]}
{"id": "C94", "title": "The ZMP generator in doubles stays inside its buffers and its splines", "statement": "With IEEE double arithmetic for all times: after phases returned by the phase computation, with a nominal switch of at least the sampling period when pauses are active, the ZMP generator writes exactly one weight, one local and one global ZMP per sample, evaluates every spline inside its domain, and takes at each sample the last step of each foot that has landed; the exception, which makes it write outside its buffers, occurs exactly when the walk has a step, the final switch has no pause, and dividing the duration of its n samples by the sampling period gives more than n in doubles.", "quantifier": "every history of setter calls without NaN, all walks up to 2^50 samples with strictly increasing shift instants, sampling periods from 2^-900 to 2^900", "why_tests_cant": "a loop bound computed in doubles depends on the last bit of a quotient for the particular final switch and sampling period", "anchors": ["src/ZMPTrajectoryGenerator.cpp: computeFeetWeightPortion, computeLocalZMP, computeGlobalZMP, computeNewTrajectories", "src/UnicycleGenerator.cpp: generateFromFootPrints"]}
{"id": "C95", "title": "The feet and the CoM height in doubles are interpolated completely", "statement": "With IEEE double arithmetic for all times: after phases returned by the phase computation, once step height and CoM height have been set, the minimum jerk generator never fails, writes one sample per instant for each foot, interpolates at normalized times between 0 and 1, and moves a foot exactly in its swings; the cubic spline generator does the same inside the domain of its splines if the apex share is not tiny (2^-100 or more); the CoM height is complete as well and varies exactly in the single supports. A foot without a step for each of its swings is refused.", "quantifier": "every history of setter calls without NaN, all walks up to 2^40 samples with strictly increasing shift instants, sampling periods from 2^-900 to 2^900", "why_tests_cant": "whether a quotient of rounded times exceeds 1, or a rounded loop bound leaves the swing, depends on the last bit for the particular swing, apex and sampling period", "anchors": ["src/FeetMinimumJerkGenerator.cpp: interpolateFoot, minimumJerk", "src/FeetCubicSplineGenerator.cpp: interpolateFoot", "src/CoMHeightTrajectoryGenerator.cpp: computeNewTrajectories"]}
{"id": "C96", "title": "No phase is empty when the settings leave room", "statement": "With IEEE double arithmetic for all times: if the steps of a walk are so far apart that both the double and the single support of each of them, as given by the switch over swing ratio, last at least a sampling period plus 2^-47 of the horizon (and so do those of a step of nominal duration when pauses are active), then the phase shift instants that are returned increase strictly, so that no phase is empty and no spline has duration zero, and the walk has at most 9 B / dT samples, where B bounds the times.", "quantifier": "every history of setter calls with finite arguments, every walk, sampling period and result of std::sort", "why_tests_cant": "whether a support is rounded to zero samples depends on the position of the impact times relative to the sampling grid, for every step of the walk", "anchors": ["src/UnicycleGenerator.cpp: createPhasesTimings, generateFromFootPrints"]}
{"id": "C97", "title": "A plan becomes complete trajectories", "statement": "With IEEE double arithmetic for all times: a plan computed for settings that leave room, from no step or from feet of which one has landed at most delta before the initial time (room: minimum step time minus delta), is accepted by the phase computation, and all generators complete it: both feet with either interpolation, the height of the CoM and the DCM each get one value per sample, inside the domains of their splines; so does the ZMP, unless the final switch is one for which C94 shows the overrun.", "quantifier": "every history of setter calls with finite arguments, every path and geometry found by the planner, initial time, horizon, sampling period and result of std::sort", "why_tests_cant": "composes the planner with six generators; a mismatch of one sample at any seam appears only for particular times", "anchors": ["src/UnicyclePlanner.cpp: computeNewSteps", "src/UnicycleGenerator.cpp: generateFromFootPrints", "src/FeetMinimumJerkGenerator.cpp", "src/FeetCubicSplineGenerator.cpp", "src/CoMHeightTrajectoryGenerator.cpp", "src/DCMTrajectoryGenerator.cpp", "src/ZMPTrajectoryGenerator.cpp"]}
{"id": "C98", "title": "Every generated walk of a session becomes complete trajectories", "statement": "With IEEE double arithmetic for all times: in every sequence of setter calls, clearSteps, generate and reGenerate calls, failed or not, whenever a generate or reGenerate returns phases, the settings leave room and a foot had landed at most delta before its initial time, all generators complete the walk: both feet, the height of the CoM and the DCM get one value per sample inside the domains of their splines, and so does the ZMP unless the final switch is one for which C94 shows the overrun.", "quantifier": "every sequence of calls with finite arguments that fit the settings, every answer of the geometric computations, every measured step and result of std::sort", "why_tests_cant": "the feet kept from the walk before, the measured times and the settings changed in between determine where the next walk begins on the sampling grid; all histories have to be covered", "anchors": ["src/UnicycleGenerator.cpp: generate, reGenerate, computeNewStepsFromMeasuredSteps, generateFromFootPrints", "src/FootPrint.cpp: keepOnlyPresentStep", "src/UnicyclePlanner.cpp: computeNewSteps", "src/FeetMinimumJerkGenerator.cpp", "src/FeetCubicSplineGenerator.cpp", "src/CoMHeightTrajectoryGenerator.cpp", "src/DCMTrajectoryGenerator.cpp", "src/ZMPTrajectoryGenerator.cpp"]}
{"id": "C99", "title": "A failed plan takes no step away", "statement": "With IEEE double arithmetic for all times: whenever computeNewSteps returns false, every step that was stored is still stored with its impact time, and the foot prints are either as before or as after the beginning of a plan: the new steps alternate between the feet, follow each other by at least the minimum step time inside the horizon, and at most one terminal step comes last. A reGenerate whose planner fails can therefore be repeated at the same or a later time: each foot still has a step that has landed.", "quantifier": "every history of calls, every path and answer of the geometric computations, whichever of them fails and whenever", "why_tests_cant": "the failure can happen at any instant of the search and after any number of steps; what is stored then is visible only to the next call", "anchors": ["src/UnicyclePlanner.cpp: computeNewSteps, initializePlanner, addTerminalStep", "src/UnicycleGenerator.cpp: reGenerate", "src/FootPrint.cpp: keepOnlyPresentStep"]}
{"id": "C100", "title": "Off the rounding ties the phases are those of exact arithmetic", "statement": "With IEEE double arithmetic for all times: if every step's length, double support and merge points keep a distance of (n+17)*2^-50 of the horizon (n steps) from the odd multiples of half a sampling period, where std::round jumps, and from the pause threshold, the phases, shift instants and merge points returned are exactly those exact arithmetic gives, and both reject the same inputs. On a tie they can differ.", "quantifier": "every history of setter calls with finite arguments, all walks up to 2^50 samples, every result of std::sort", "why_tests_cant": "the clock accumulates the rounding errors of all earlier steps; whether one of them moves a shift by a sample depends on all impact times, the ratio and the sampling period together", "anchors": ["src/UnicycleGenerator.cpp: createPhasesTimings, generateFromFootPrints, setSwitchOverSwingRatio"]}
{"id": "C101", "title": "The speed limits hold for doubles", "statement": "With IEEE double arithmetic, finite settings and an angular limit whose square does not overflow: after any history of setter calls without NaN and an accepted setSaturations, every command returned by doControl is within the limits last accepted, whatever numbers the controller asked for, infinities included; the forward limit while turning is the documented one up to a relative error of 2^-49, and commands within the limits are returned unchanged.", "quantifier": "every history of setter calls, every raw command, every controller", "why_tests_cant": "needs every double, among them infinities, NaN, values whose square overflows and products whose rounding exceeds a limit by one unit", "anchors": ["src/UnicycleBaseController.cpp: saturate, doControl, setSaturations, setSlowWhenTurnGain, setSlowWhenBackwardFactor, setSlowWhenSidewaysFactor"]}
{"id": "C102", "title": "Navigation stays on its path with doubles", "statement": "Whatever rounding, infinities and NaN do: the navigation controller always works on a pose of the path last accepted, moves on one pose per query at most and never back, and once it has stopped at the last pose it returns zero commands until it gets a new path or time step. With IEEE doubles, after an accepted path, accepted saturations and a measured pose, every further call is defined as long as all headings are finite, whatever positions, times and the functions of <cmath> give; every command is zero or turns with the accepted angular speed in the direction of the heading difference less one turn.", "quantifier": "every history of calls, every arithmetic; for the second part every double and every cos, sin, atan2, pow", "why_tests_cant": "covers all sequences of calls with all doubles; uninitialised reads need not show in a test", "anchors": ["src/UnicycleNavigationController.cpp: all methods"]}
{"id": "C103", "title": "The desired trajectory of the person following controller with doubles", "statement": "With IEEE double arithmetic, after any history of setDesiredPoint, clearDesiredTrajectory and clearDesiredTrajectoryUpTo calls whose times are not NaN: the stored points are in order of time with no negative time; getDesiredPoint fails exactly for NaN, negative times, an empty trajectory and times before the first point; after the last point it returns that point bit by bit; between two points with finite times and coordinates up to 2^1000 it returns a point within a few units of rounding of the straight line between them, still so after the past has been cleared n times in between (4(n+1) units of 2^-49 of the coordinates); at the time of a stored point it returns the stored point exactly; an accepted clearing answers nothing before its time, a refused one changes nothing.", "quantifier": "every history of calls, every double, every result of std::sort allowed by the standard, up to 2^40 clearings", "why_tests_cant": "the error of clearing accumulates over all control cycles; overflow, equal times, infinities and cancellation in the ratio depend on particular doubles", "anchors": ["src/PersonFollowingController.cpp: interpolateReferences, setDesiredPoint, clearDesiredTrajectory, clearDesiredTrajectoryUpTo, getDesiredPoint"]}
{"id": "C104", "title": "The DCM foot weights are shares in doubles", "statement": "With IEEE double arithmetic: whatever the phases, steps, offsets, ZMP positions (also NaN and infinite) and the functions of <cmath> are, every pair of weights returned with the DCM trajectory consists of two numbers between 0 and 1 whose sum in doubles is exactly 1. After phases returned by the phase computation without an empty one, there is a pair for every sample, all the load is on the stance foot in single support, and in double support the left foot's part is within 2^-47 of one minus the distance of the ZMP from its own ZMP over the distance of the two (at least 0), where each foot is on the step it stands on; exactly at a foot's ZMP that foot has all the load. Coordinates up to 2^500, feet ZMPs at least 2^-470 apart.", "quantifier": "every list of phases, steps, ZMP positions and offsets, every double, every cos and sin; for the second part every walk whose phases are not empty", "why_tests_cant": "the sum depends on the rounding of 1 - w for each of the 2^62 doubles between 0 and 1; NaN passes through std::max and std::min in one direction only", "anchors": ["src/DCMTrajectoryGeneratorHelper.cpp: computeFeetWeight"]}
{"id": "C105", "title": "Planned steps respect the limits in doubles", "statement": "With IEEE double arithmetic for positions, angles and times: in every plan returned by computeNewSteps the new steps are taken in turns, the first after the last step of the other foot; each step of the search takes at least the minimum step time and is finite and within the maximum length, the minimum width, the maximum change of heading and the maximum length backward, measured from the last step of the other foot, up to 2^-48 of the maximum length (2^-51 of the angle), or it is next to the other foot at the nominal width up to rounding; of the steps added at the end the first is again within the limits or next to the other foot. A trajectory with NaN or infinite poses never becomes a step of the search.", "quantifier": "every trajectory of the unicycle, settings with finite limits, previous steps, horizon, ellipse; every cos, sin and pow(x,2) within 2^-52", "why_tests_cant": "the limits are tested on rounded differences, rotations and norms; whether a violating step is accepted depends on particular doubles, and NaN decides comparisons one way only", "anchors": ["src/UnicyclePlanner.cpp: computeNewSteps, get_rPl, get_newStepRelativePosition, addTerminalStep", "src/UnicycleOptimization.cpp: checkConstraints, getCostValue", "src/UnicycleFoot.cpp: addStep, addParallelStep, isTinyStep"]}
{"id": "C106", "title": "The landing time of least cost is chosen in doubles", "statement": "With IEEE double arithmetic: every step that the search of computeNewSteps takes lands at the sample of least computed cost among all samples examined and accepted since the step before, at the latest of these if several have that cost, and only if no sample was accepted is it next to the other foot; this holds whatever the positions and costs are as long as the costs are not NaN. With the cost that the planner computes (time weight over the square of the duration plus position weight times the square of the distance from the other foot), the exact cost of the step taken exceeds that of no other accepted sample by more than 2^-45 of it (and (weights + 1) 2^-498), for finite costs and weights not negative.", "quantifier": "every plan, trajectory of the unicycle, settings, previous steps and horizon; every cos, sin and pow(x,2) within 2^-52", "why_tests_cant": "the chosen sample depends on comparisons of rounded costs over a whole run of the search; ties and NaN are decided by the form of a comparison", "anchors": ["src/UnicyclePlanner.cpp: computeNewSteps", "src/UnicycleOptimization.cpp: checkConstraints, getCostValue, setCostWeights"]}
{"id": "C107", "title": "The free-space ellipse decides correctly in doubles", "statement": "With IEEE double arithmetic, after any history of setEllipse (semi-axes, angle, centre) and clear calls: without an accepted ellipse every point is inside; otherwise the last accepted call decides, a point for which isPointInside is true is finite and its value in the exact ellipse is at most 1 plus 2^-46 times its distance from the centre over the smaller semi-axis, and a point for which it is false has at least 1 minus that. Hence the steps that the planner takes from the trajectory, and the first of two steps at the end, are inside the free space up to that border. Semi-axes up to 2^100, finite angle; coordinates up to 2^200 for the second part.", "quantifier": "every history of calls, every point, every plan; every cos and sin within 2^-52", "why_tests_cant": "the matrix is built, inverted and applied with rounding; whether a point close to the border is on the wrong side depends on particular doubles", "anchors": ["src/FreeSpaceEllipse.cpp: setEllipse, clear, isPointInside, computeGenerators, generatorsModule", "src/UnicycleOptimization.cpp: checkConstraints"]}
{"id": "C108", "title": "The unicycle integrated in doubles cannot outrun its limits", "statement": "With IEEE double arithmetic, whatever numbers (infinities included) the controller asks for, n Euler steps of total length T keep the pose finite, move the unicycle by at most the configured top speed times T plus n W 2^-48 and turn it by at most the angular limit times T plus n W 2^-51, W being the size of the world (coordinates at most W/2 at the start, W/4 of travel, n at most 2^40). The limits that computeNewSteps installs are finite and not negative for usual settings with a positive minimum step time, and within that time they allow at most the forward reach of a step plus 2^-25 of the maximum length, and the maximum step angle up to 2^-51 of it.", "quantifier": "every controller, every history of settings, every sequence of integration steps; every cos and sin within 2^-52", "why_tests_cant": "errors accumulate over any number of integration steps and headings; no test covers all controllers", "anchors": ["src/ControlledUnicycle.cpp: dynamics", "src/UnicycleBaseController.cpp: doControl", "src/UnicyclePlanner.cpp: computeNewSteps, lines 755-790"]}
{"id": "C109", "title": "Person following obeys its control law in doubles", "statement": "With IEEE double arithmetic the commands of the person following controller are finite, and a unicycle that obeys them carries the tracked point at the desired velocity minus the gain times the tracking error, up to 2^-46 (1 + |dy/dx|)(V + 4 k B) in each coordinate (B bounds coordinates, desired point and distances, V the desired velocity, k is the gain; B, V and k at most 2^100, |dx| and k at least 2^-100). In the whole loop of desired trajectory, blending with the free space, control law, saturation and Euler integration the pose stays finite and the limits of C108 hold.", "quantifier": "every pose, desired point, velocity, gain and distance of the stated sizes; every history of settings and desired points; every cos and sin within 2^-52, every tanh with values between 0 and 1", "why_tests_cant": "rounding errors are divided by the distance and fed back; no test covers all headings, distances and trajectories", "anchors": ["src/PersonFollowingController.cpp: doUnicycleControl, setUnicycleStateFeedback, getPersonPosition, getDesiredPointInFreeSpaceEllipse", "src/ControlledUnicycle.cpp: dynamics"]}
{"id": "C110", "title": "Poses read from the integrated unicycle respect the limits in doubles", "statement": "With IEEE double arithmetic every time between the start and the end of the integrated interval is answered with the sample nearest to it in time (half an integration step, up to 2^-51 of the elapsed time), with and without assertions. Two times t <= t' are answered with finite poses that are no further apart than the configured limits allow for t' - t plus 65/64 of an integration step, up to the rounding of the coordinates (C108). getPersonPosition gives the tracked point of that sample up to 2^-49 of the size of the coordinates. The index is never out of bounds.", "quantifier": "every history of settings, controller, initial pose and pair of times in range; every grid of at most 2^40 integration steps of usual size (2^-100 to 2^100 s) that reaches the end", "why_tests_cant": "the index is a rounded quotient of rounded differences; a test covers single times of a single grid, not the times next to the midpoints between samples of all grids", "anchors": ["src/UnicyclePlanner.cpp: getIntegratorSolution, getPersonPosition", "src/ControlledUnicycle.cpp: dynamics"]}
{"id": "C111", "title": "A point projected into the free space stays in it up to rounding in doubles", "statement": "With IEEE double arithmetic projectPointInsideEllipse returns a point that isPointInside accepts unchanged, and for every other point a finite point that lies on the border of the ellipse up to rounding, whatever the direction from which it is seen.", "quantifier": "every history of setEllipse and clear, every pair of finite points and every library of elementary functions", "why_tests_cant": "the intersection is a difference of nearly equal squares divided by the square of the slope; it is wrong only for directions very close to an axis, which tests do not hit by chance", "anchors": ["src/FreeSpaceEllipse.cpp: projectPointInsideEllipse, getIntersectionsWithLine, getClosestIntersectionsWithLine"]}
