# Verification design: unicycle-footstep-planner

Subject: the C++ library in `/repo` (read as text, never built or run).
Model and proofs: Rocq/Coq 8.16.1, `/verif/rocq/theories`, logical name `Verif`.

## 1. How the code is modelled

* **Numbers.** C++ `double` is modelled by the real numbers `R` of the standard library.
  Rounding, NaN, infinities and signed zero are outside the model, except in the theorems that are
  explicitly about binary64: C51 (primitive floats), C80, C81 (Flocq's format with rounding to nearest) and C82 to C91 and C94 to C111 (Flocq's IEEE binary64
  with overflow, infinities, NaN and signed zero).
  `size_t` is modelled by `nat`; a subtraction that would wrap, a negative `double` converted to `size_t`
  and an access outside a container are explicit outcomes of the model (`UB`), never silently repaired.
  Overflow of `size_t` beyond 2^64 is not modelled.
* **Results.** `Ok a` (the C++ function returned `true`/a value), `Fail` (returned `false`), `UB`
  (undefined behaviour or wrap-around). Stateful methods return the new state together with the outcome, also
  when they fail, so partial updates are visible.
* **Containers.** `std::deque`/`std::vector` are lists. `std::sort` is not stable, so where ties matter the
  result is *any* sorted permutation (a relation or an arbitrary function satisfying that specification).
* **External code.** iDynTree's integrator (forward Euler), cubic splines, base
  `Constraint`/`OptimalControlProblem` feasibility tests and rotations are not in `/repo`. They are either
  modelled from their documented behaviour or left as arbitrary section variables with a stated contract; where a
  contract is assumed a concrete instance is given to show that it can be met.
* **Uninitialised memory** is an arbitrary extra argument ("garbage"); a theorem that quantifies over it says the
  value does not matter, a refutation shows that it does.
* **Console output** (`std::cerr`) is not modelled.

Every definition in a model file cites the file and lines it models and its simplifications.

## 2. File layout

For each part `X` of the library: `X.v` (model, definitions only), `XSpec.v` where the specification needs its own
vocabulary, `XProofs.v` (lemmas), `Properties_X.v` (the property theorems, each `exact`ing a lemma, followed by
`Print Assumptions` and by an `Example` showing the hypotheses can be met).

## 3. Naming

* plain name: the property is proved in full for the model;
* `_partial`: only part of the property; the full statement and what is missing stand beside it;
* `_refuted`: the faithful model violates the property; the theorem exhibits the violation. These are findings about
  the code and are listed in section 6.

## 4. Plan per property

| id | modelled | proof |
|----|----------|-------|
| C01 | `FootPrint` as list of steps; all methods | induction on the list; spec = split of the list at the last step with time <= t |
| C02 | same, op language `fpop` | invariant over `fold_left`, counting spec |
| C03 | rotation, foot offset, yaw | algebra with cos^2+sin^2=1 |
| C04 | `addParallelStep` on both feet | algebra |
| C05 | `get_rPl`, `get_newStepRelativePosition`, `isTinyStep`, cost | invariance under an arbitrary rigid motion |
| C06 | five constraints and the problem object with its setters | equivalence to a geometric spec stated with distances and sines |
| C07 | all planner/problem/controller setters | case analysis; refutations for partial updates |
| C08 | `saturate`, `doControl`, setters as op language | invariant on settings, then bounds |
| C09 | dynamics + explicit Euler over lists of samples | induction on the number of steps |
| C10 | direct controller | case analysis and induction on the rollout |
| C11-C13 | reference trajectory as list, lookup with iterators as splits | permutation/sortedness; induction |
| C14 | control law | field identity; derivative statement of tracked point via Coquelicot |
| C15 | free space ellipses, tanh blending | convexity of ellipse, projection inside |
| C16 | setter histories | refuted: ellipse flag/partial update |
| C17 | ellipse matrices | algebra |
| C18, C19 | intersection code with all branches and thresholds | quadratic equation, completeness by factorisation |
| C20 | matrix form of setEllipse | refuted for abs(sin) > abs(cos); partial for the other half |
| C21 | tangent with garbage entry | refuted; exact condition on the boundary (`Properties_Exact.v`) |
| C22-C25 | navigation controller state machine | invariant over op lists; refutations with concrete headings |
| C26-C31 | planner search loop as fuelled recursion with explicit out-of-fuel | loop invariants; ranking (lexicographic) argument for termination |
| C32 | setter histories | invariant; refutation for the backward limit |
| C33-C38, C40 | `createPhasesTimings` function by function | induction over the ordered steps |
| C39 | `orderSteps` with any sorting permutation | permutation |
| C41 | setters | invariant over op lists |
| C42 | `generateFromFootPrints`, `reGenerate` over state | case analysis; refutations |
| C43 | measured-step correction | atan2/angle algebra |
| C44-C46 | min-jerk interpolation | induction over phases; polynomial bounds; derivatives |
| C47-C50 | ZMP generator; splines as oracle with contract | induction over phases |
| C51 | binary64 loop bound | computation with primitive floats |
| C52 | CoM height | induction over phases |
| C53-C57 | DCM helper | Coquelicot derivatives; induction over sub-trajectories |
| C58 | one-shot flags | op histories |
| C59, C60 | threads as lists of lock/unlock/access actions, interleaving semantics | lock-order invariant; explicit racy schedules |

| C61 | `getSaturationLimits` of the planner | algebra; refuted for the angular limit, exact condition in `Properties_Exact.v` |
| C62 | image matrices given to `setEllipse` | algebra; refuted by a sheared matrix, exact condition in `Properties_Exact.v` |
| C63 | navigation command | algebra on unit vectors; refuted when aligned |
| C64 | swing height | Lipschitz bound of the polynomial between samples |
| C65 | ZMP velocities and accelerations | algebra; refuted by the transform of vectors as points |
| C66 | ZMP rests on stance foot in single support | induction over phases |
| C67 | DCM stance ZMP | induction over steps; refuted for repeated feet |
| C68 | DCM double support share | algebra; refuted |
| C69 | default ZMP offset | algebra; refuted for turned feet, exact start in `Properties_Exact.v` |
| C70 | all outputs of a generation have one length | induction over phases and sessions |
| C71 | getters of plug-ins and generator agree | invariant over sessions; refuted after a failure |
| C72 | cubic spline swing; splines as oracle with contract | closed form derived from the contract; induction over phases |
| C73 | vertical spline with apex and landing velocity | exact maximum and exact sign condition; refuted outside |
| C74 | `computeNewSteps` | equivalence with a condition on the arguments; progress and explicit iteration bound |
| C75 | plan handed to the generator | loop invariant on impact times; composition with the theorems on accepted walks |
| C76 | sessions of generate and reGenerate | invariant over well-used sessions; refuted for late calls |
| C77 | reported transforms, twists and accelerations of the feet | rigid motions whose derivatives are the reports |
| C78 | planning and generating anew at a merge point | first new samples equal the old ones at that instant; refuted for a step that lands, by rounding, before its impact time |
| C79 | order of the steps; feet, ZMP and DCM results of one generation | planner and generator let the feet alternate; ZMP from feet, local ZMPs and weights; DCM's ZMP on the standing foot |
| C80 | phases in binary64 | the phase computation with every operation rounded; structure from monotonicity of rounding alone |
| C81 | timing in binary64 | error of the accumulated clock per step; invariant over the loop |
| C82 | setters for doubles | setters over an abstract arithmetic with three instances (reals, rounded reals, IEEE); simulation between them; ranges by invariant over calls |
| C83 | phases for doubles | no operation leaves the finite range in the envelope, hence equal to the rounded run; C80 and C81 carried over |
| C84 | std::sort precondition | order embedding of all non-NaN doubles into the reals; NaN refuted |
| C85 | NaN refused | refuted for every setting and for period, times and share |
| C86 | planning in doubles returns | the search over the abstract arithmetic with the geometry as oracle; measure in units of the smallest double |
| C87 | plans in doubles alternate | invariant of the search in doubles; order of all non-NaN doubles embedded into the reals |
| C88 | plans in doubles can be executed | C87's times form a `walk` of real values with a gap (rounding errors summed), then C83 and C81 |
| C89 | the re-planning loop in doubles | invariant over sequences of calls (settings reachable, impact times numbers not below zero), then C86 and C88; the exact instance is `replan` |
| C90 | times of the DCM generator in doubles | the generator over the abstract arithmetic, without positions; order and spacing of rounded sampling instants; invariant over the sub-trajectories; stillness 0 refuted by computation with an executable instance |
| C91 | phases for any arithmetic | loop invariant that uses no law of the arithmetic at all |
| C92 | `FootPrint` objects with their shared pointers, copies and moves | refinement of the heap to values under the invariant that no list has two holders |
| C93 | stored initial DCM state | invariant over op histories; first sample under the conditions of C55 |
| C94 | times of the ZMP generator in doubles | the generator over the abstract arithmetic, without positions; loop bounds and spline times by error analysis; the overrun characterised completely, and shown by computation |
| C95 | times of the feet generators and of the CoM height in doubles | the loops over the abstract arithmetic; normalized times in [0, 1] and loop bounds by error analysis; the number of swings of a foot below the number of its steps for any arithmetic |
| C96 | no empty phase in doubles | error analysis of one step of the clock loop, then induction over the loop; bound on the number of samples |
| C97 | plan to trajectories in doubles | C88, C96, C90, C94 and C95 composed, hypotheses on settings and times only |
| C98 | session to trajectories in doubles | invariant of C89 over the calls, recency of the feet kept by reGenerate, then C97 |
| C99 | what a failing planner leaves | the search with the exit at every check, same invariant as C87 up to the failing instant |
| C100 | phases in doubles equal the exact ones off the ties | clock of the rounded loop follows the exact clock within 6 units per step; every count rounds to the same sample; the condition (`settled`) is on the exact walk; refuted on a tie |
| C101 | speed limits in doubles | rounding is monotone, overflow put at the ends (`clamp`); error of sqrt(w*w) bounded through squares; NaN and infinity cases refuted by computation |
| C102 | navigation in doubles | generic model over an arithmetic and a <cmath>; invariant over the calls for any arithmetic, then finite headings have comparable differences; exact instance equals `Navigation.v`; NaN and infinite headings refuted |
| C103 | desired trajectory in doubles | generic model over an arithmetic; order invariant over the calls, error analysis of one interpolation, induction over clearings; exact instance equals `PersonFollowing.v`; the box of the neighbours, infinite and NaN times refuted |
| C104 | DCM foot weights in doubles | generic model over an arithmetic; induction over the phases of any arithmetic; error analysis of norm, quotient and difference; exact instance equals `DCM.v`; NaN ZMP and coincident feet ZMPs refuted |
| C105 | steps of a plan in doubles respect the limits | generic model of feet, constraints and cost over an arithmetic, plugged into the search of C86; naturality of the search in the representation of poses gives the exact instance; chain of examined steps for arbitrary answers; error analysis of rotation and norm; strict limits refuted by a computed plan |
| C106 | landing time of least cost in doubles | states of a run of the search of C86 as a function of the iteration; invariant over the states since the last step: the remembered cost is the least one examined, for arbitrary answers; error analysis of the cost for the planner's own one; NaN weight refuted |
| C107 | free-space ellipse in doubles | generic model of the setter (Eigen's product and inverse) over an arithmetic, exact instance equal to C15's; error analysis of matrix, determinant, inverse and norm; steps of a plan through C105's chain; NaN semi-axis refuted |
| C108 | dynamics, Euler steps and the limits of the planner in doubles | generic model over an arithmetic, exact instance equal to C09's; error of one step, induction on the steps with a shrinking budget; error analysis of sqrt(L^2 - w^2); minimum time 0 refuted |
| C109 | control law and loop of the person following controller in doubles | generic model over an arithmetic, exact instance equal to the one of C11 to C16; relative error of every operation (`off`), derivative of the carried point; the loop composes C103, the blending, C101 and C108; tiny distance and infinite conservative factor refuted |
| C110 | poses the planner reads from the integrated unicycle in doubles | index of the nearest sample from the error of one quotient; every two samples are joined by a part of the integration, to which C108 applies; requests out of range refuted |
| C111 | projection of a point into the free space in doubles | partial: exact instance; cases for any arithmetic; error of the quadratic formula through the residual of the equation, 2^-46 (1 + delta^2 + abs sigma) for coefficients up to 2^20; in the plane 2^(2k-41) and the way back for a robot inside, a person outside and a slope of at most 2^k, k up to 18 (`C111_slope`); refuted for steeper lines |

No property of the list is considered inexpressible.

## 5. Trusted base

* Coq 8.16.1 kernel (and `coqchk`).
* Axioms reported by `Print Assumptions`: each theorem in the `Properties_*.v` files is followed by that command, so
  the build output lists them theorem by theorem. All are axioms of the standard library:
  `ClassicalDedekindReals.sig_forall_dec`, `ClassicalDedekindReals.sig_not_dec`,
  `FunctionalExtensionality.functional_extensionality_dep` (the construction of `R`), `Classical_Prop.classic`
  (analysis and some real lemmas), and for `C51_overrun_refuted` the primitive integers and floats.
* The translation from C++ to Gallina done by hand, as cited definition by definition.

### 5.1 What is modelled

| source file | model | extent |
|-------------|-------|--------|
| FootPrint | `FootPrint.v`, `Shared.v` (pointers, list constructor, copies, moves) | all methods |
| UnicycleFoot, ControlledUnicycle | `UnicycleFoot.v`, `Controllers.v` | foot placement, dynamics, integration |
| UnicycleBaseController, UnicycleDirectController | `Controllers.v` | all methods except state feedback storage |
| PersonFollowingController, FreeSpaceEllipse | `PersonFollowing.v`, `Ellipse.v` | all methods except printing |
| UnicycleNavigationController | `Navigation.v` | all methods |
| UnicycleOptimization | `Optimization.v` | problem, setters, five constraints, cost |
| UnicyclePlanner | `Planner.v`, `PlannerSearch.v`, `TimedPlan.v` (times of computeNewSteps in IEEE binary64) | constructor, setters of the planner and of the problem, `computeNewSteps` and its helpers; methods that only forward to a controller are represented by that controller's model |
| UnicycleGenerator | `GenPhases.v`, `RoundedGen.v`, `DoublesGen.v`, `Generator.v` | `orderSteps`, `createPhasesTimings`, `generateFromFootPrints`, `generate`, `reGenerate`, setters, getters |
| numeric setters of all classes | `Doubles.v` | in IEEE binary64, beside the exact models in the files above |
| FeetMinimumJerkGenerator, FeetGenerator | `FeetTraj.v`, `FeetPose.v` | all methods |
| FeetCubicSplineGenerator | `FeetSpline.v` (with `FeetTraj.v`, `FeetPose.v`) | all methods |
| CoMHeightTrajectoryGenerator | `CoMHeight.v` | all methods |
| ZMPTrajectoryGenerator | `ZMP.v`, `ZMPFloat.v`, `ZmpTimes.v` (its times in IEEE binary64) | all methods |
| locking of all classes | `Threads.v`, `GenThreads.v` | every public method of generator, planner, plug-ins and foot print: mutexes and data touched; weak memory is not modelled (actions interleave), statements may be skipped and bodies left early |
| DCMTrajectoryGenerator(Helper) | `DCM.v`, `DcmTimes.v` (its times in IEEE binary64) | all methods |

Getters that only return a member are represented by the projections of the model's records.

### 5.2 What is not modelled

* Floating point rounding, except in C51 and in the phase computation (C80, C81: `RoundedGen.v`, every operation of
  createPhasesTimings and setSwitchOverSwingRatio rounded to binary64), in the setters of all classes and again in
  the phase computation with overflow, infinities and NaN (C82 to C85: `Doubles.v`, `DoublesGen.v`), and in the times of
  computeNewSteps and of the reGenerate methods (C86 to C89: `TimedPlan.v`, `TimedLoop.v`), and in the times
  of the DCM generator (C90: `DcmTimes.v`, without positions, velocities and weights) and of the ZMP generator (C94: `ZmpTimes.v`,
  without positions and values of weights), of the two feet generators and of the CoM height (C95: `FeetTimes.v`, without
  positions, angles and heights). In C86 to C89 everything computed from
  positions and angles is an arbitrary answer, the same for the same feet, step and time; the foot prints that a failing
  planner leaves behind are computed (`t_rest`, C99). The speed limits of the base controller and the navigation controller are
  in `CtrlDoubles.v` (C101, C102): minus and square root as IEEE 754 requires, pow(x, 2), cos, sin and atan2 arbitrary functions.
  The desired trajectory of the person following controller is in `TrackDoubles.v` (C103), without the ellipses and the control law.
  The weights of the feet of the DCM generator are in `DcmWeights.v` (C104); the ZMP positions given to them are inputs.
  The positions of the steps, the constraints and the cost are in `StepDoubles.v` (C105); the trajectory of the unicycle is an arbitrary function of time there,
  cos and sin are within 2^-52 of the exact values, pow(x, 2) within a relative 2^-52. Fused multiply-add is not modelled anywhere.
  The ellipse of the free space is in `EllDoubles.v` (C107) for semi-axes; the setter with an image matrix, the intersections with lines and the projection are exact only.
  The unicycle is integrated in doubles in `UniDoubles.v` (C108); the controller is an arbitrary function there and the lengths of the integration steps are given.
  The control law of the person following controller is in `PersonDoubles.v` (C109). What the ellipses contribute (inside test, projections, blending factor before tanh) is a parameter there,
  of which finite results of bounded size are assumed; std::tanh is a parameter with values between 0 and 1. Products of Eigen are sums over each row, from left to right, without fused operations.
  How the planner reads the integrated poses is in `IntDoubles.v` (C110). The list of samples belongs to the external integrator: the theorems assume that it starts at the initial time, ends at the
  final one, has steps no longer than maximumStepSize() up to 2^-40, and that so many full steps reach the end (`grid`).
  Intersections with a line and the projection (src/FreeSpaceEllipse.cpp:178-324) are in `ProjDoubles.v` (C111), for ellipses set by semi-axes. Back in the plane the rounding of the image
  matrix and the centre is bounded for semi-axes as in C107 (`C111_lands_partial`, `C111_slope`). What the ellipses contribute to the person following reference is in `CutDoubles.v`; C109 takes it as a parameter and assumes that it
  keeps points in size, which C111_tame_refuted shows to fail for the directions of C111_stays_refuted.
* The tests, examples and build files of the repository.
* Console output, memory exhaustion, exceptions of the allocator.
* Aliasing: foot prints are values; a user who edits a foot print through a shared pointer between two calls is a
  new value in the history, and one who edits it during a call is not modelled.
* DCM generator: the content of the output vectors after a failure (outcome `Torn`); a failed `assert` is `UB`.
* Paths and lists longer than `INT_MAX`.

### 5.3 Assumed behaviour of external code

* iDynTree forward Euler: new state = state + h * dynamics; `setMaximumStepSize` refuses values <= 0.
* iDynTree `CubicSpline`: a clamped cubic spline through its data; `setData` refuses coinciding times;
  end velocities that were never set are zero (pitch of the cubic feet generator).
* iDynTree `Rotation::RPY(r, p, y)` = Rz(y) Ry(p) Rx(r); `RPYRightTrivializedDerivative` and its `RateOfChange` as written in
  `FeetPose.v`.
* iDynTree `Rotation::asRPY` yaw = atan2(r10, r00); `RotZ` is the plane rotation; a transform applied to a position
  is R p + t, also when the position is really a velocity (C65).
* `std::sort` returns some sorted permutation.
* iDynTree `OptimalControlProblem`: a point is feasible iff every added constraint is, the cost is the sum of the added
  terms with their weights.
* `PersonFollowingController::clearUpTo` compares an iterator after `pop_front` has invalidated it; the model uses
  the intended end test (C13).

## 6. Findings

Each item names the theorem that exhibits it, or says "remark" when it was noticed while reading and is visible in the
model but has no theorem of its own. Line numbers are in the comments of the cited definitions.

### Foot prints and planner

* `keepOnlyPresentStep` empties the list before it fails when all times are negative: `C01_failed_keep_preserves_refuted`.
* Copying or assigning a `FootPrint` shares the steps: what is done to the copy is done to the original
  (`C92_copy_refuted`, `C92_assign_refuted`); two foot prints made from one list are one (`C92_one_list_refuted`).
  `clearSteps`, `keepOnlyPresentStep` and `getSteps` dereference the null pointer of a moved-from foot print, which the other
  methods test (`C92_moved_from_refuted`).
* `addStep` does not keep the list ordered, that is left to the caller: `C02_addStep_enforces_order_refuted`.
* `setCostWeights` and `setMaximumIntegratorStepSize` change the object although they report failure:
  `C07_refused_weights_change_refuted`, `C07_refused_integrator_step_change_refuted`.
* The reported angular limit differs from the one enforced: `C61_reported_angular_refuted`.
* The second terminal step is placed without the free space check and may lie after the horizon:
  `C26_terminal_step_unchecked_refuted`. Parallel steps are not checked either (remark).
* A nominal step time of 0 is accepted and gives duplicate steps: `C27_zero_nominal_time_refuted`.
* A period of 0 is accepted and the search never returns: `C29_zero_period_never_returns_refuted`.
* With one empty foot print and no terminal step an uninitialised step is read: `C31_one_empty_foot_refuted`.
* A backward limit of 0 rejects every step, the comparison being strict (in the statement of C06).
* A minimum time of 0 makes the saturations divide by zero (remark).

* The minimum step time is counted from the last landing, not from the call: a robot that has been standing may be asked
  to land a step one planner period after the call: `C75_time_for_the_first_step_refuted`. The generator can then be
  unable to make trajectories and `reGenerate` returns false: `C76_late_call_refuted`. It does not happen when the DCM
  velocity resets the impact times, since feet with equal times wait for the nominal step time.

### Controllers

* Line intersections within 1e-15 of an axis are missed: `C19_band_refuted`.
* The matrix form of `setEllipse` loses the sign of the rotation beyond 45 degrees: `C20_round_trip_refuted`.
* Sheared matrices are accepted as ellipses: `C62_sheared_refuted`, `C15_sheared_refuted`.
* The tangent uses an uninitialised matrix entry: `C21_unwritten_entry_refuted`.
* A refused ellipse takes effect: `C16_refused_ellipse_refuted`.
* Navigation: a query before any path reads an uninitialised flag and out of range: `C22_query_without_path_refuted`;
  limits act along the world axes: `C24_body_frame_refuted`; only one turn is removed from the heading error:
  `C25_two_turns_refuted`; it turns at full rate when aligned: `C63_turns_when_aligned_refuted`; refused saturations
  have already changed the base class: `C07_navigation_saturations_refuted`.
* The person following header promises a constant reference between points, the code interpolates (remark).

### Phases and generation

* Starting after the end of the walk converts a negative number to `size_t`: `C37_late_start_refuted`.
* A terminal switch below half a sample puts the last merge point in single support: `C38_double_support_refuted`;
  one-sample steps give equal merge points: `C38_strict_order_refuted`.
* One past the end of a deque is addressed in ordinary use: `C40_inside_lists_refuted`.
* Arguments are stored before they are checked, and `reGenerate` trims the foot prints before it can fail:
  `C42_arguments_refuted`, `C42_regenerate_refuted`.
* After a failed generation plug-ins and generator disagree: `C71_after_failure_refuted`.
* One-shot initial states are consumed when a later plug-in fails: `C58_failure_refuted`; a used DCM velocity still
  governs the next `reGenerate` call: `C58_stale_velocity_refuted`, `C58_velocity_stays`.
* A generation without a given DCM state overwrites the stored state with one at rest, and the next `reGenerate` reads
  it: both feet are handed to the planner as landed at the later of the two times, though the robot walks and no
  velocity was ever given: `C93_landing_times_refuted`, `C93_default_resets`.
* Impact times are rounded to instants, but re-planning compares with the exact time: at a merge point up to half a
  sample before the impact the foot that has just landed is taken back to its previous step:
  `C78_early_landing_refuted` (excluded for merge points strictly inside the switches: `C78_merge_points`).
* `getStepPhases` before the first generation dereferences a null pointer (remark).

### Threads

* Thirteen groups of public methods touch shared data without the mutex that owns it: `C60_unlocked_methods_refuted`;
  pairs that race, among them generate with setPauseActive or setNavigationPath and reGenerate with
  setDCMInitialState: `C60_races_refuted`.
* generate and reGenerate release the mutex between planning and generating; another thread's foot prints can be used
  instead of the planned ones: `C60_own_plan_refuted`.

### Floating point

* In binary64 a swing can end more than half a sampling period away from its impact time, because a quotient just below
  a half is rounded to it: `C81_half_sample_refuted`; an accepted, very large switch-over-swing ratio gives a switch
  share of exactly 1, that is no swing at all: `C80_share_below_one_refuted`.
* NaN is never refused. All checks reject on a comparison that is false for NaN, so each of the 44 numeric settings can be
  set to NaN by a call that returns true: `C85_setters_refuted`. setSwitchOverSwingRatio(+inf) and
  setMaximumStepLength(+inf, 0) store NaN for arguments that are not NaN: `C85_infinity_refuted`.
* The consequences in generateFromFootPrints are conversions of NaN to size_t, that is undefined behaviour, instead of
  `false`: with a NaN sampling period for all feet (`C85_period_refuted`), with a NaN share for all feet with a step to do
  (`C85_share_refuted`), with a NaN impact time (`C85_time_refuted`); a positive sampling period that is too small for the
  duration of the walk does the same (`C83_tiny_period_refuted`).
* A search period below the spacing of the doubles at initTime, e.g. 2^-60 s from one second on, is accepted, and
  computeNewSteps never returns: `C86_lost_period_refuted`. With such a nominal time the terminal steps get the impact time
  of the step before, so a foot has two steps at one time: `C87_equal_times_refuted`.
* The DCM generator aborts (`assert(startTime <= endTime)`) for an ordinary walk in doubles when the stillness share is 0,
  a value that its setter accepts: the stop would begin at t1 + (t2 - t1), which rounds to a double above t2. One step to
  0.58 s at 100 Hz with 1.2 s of final switch does it: `C90_no_stillness_refuted`. Any share from 2^-50 to 1 is safe.
* A NaN angular command passes the saturation and switches the limit on the forward speed off: `C101_nan_turn_refuted`. Without
  NaN in the inputs the same happens when the square of the angular limit overflows and the turn gain is 0
  (`C101_fast_turn_refuted`), and an infinite speed limit cancels backward and sideways factors of 0
  (`C101_infinite_limit_refuted`), since both compute 0 * inf. `moderate` (finite limits and factors, angular limit up to 2^511)
  is enough for the limits to hold.
* A NaN heading (measured or in a path), or infinite headings of both, leave `angleDirection` uninitialised in
  computeDesiredVelocities, which is then read: `C102_nan_refuted`, `C102_infinite_refuted`.
* `PersonFollowingController::setDesiredPoint` accepts an infinite time; between the point before it and infinity the ratio is infinity over infinity, so the
  desired point, and with it the command, is NaN (`C103_infinite_refuted`). A NaN time is accepted as well (`C103_nan_accepted`); std::sort then has no strict
  weak order and its behaviour is undefined. Harmless but visible: interpolation between two equal values can leave them, 5 at 0 s and 7 s gives
  5.000000000000001 at 6 s (`C103_box_refuted`), and each clearDesiredTrajectoryUpTo adds such an error to what is kept (`C103_between` bounds the sum).
* addStep accepts a NaN impact time, after which std::sort is called without a strict weak order: `C84_order_refuted`.
- **A ZMP that is not a number puts all the weight on the right foot.** computeFeetWeight clips with `std::min(1.0, std::max(0.0, x))`, which turns NaN
  into 0. So a NaN in the ZMP, and likewise feet whose ZMPs coincide (0/0 or x/0), give weights 0 and 1 in double support, without an error, wherever
  the ZMP is, also exactly at the left foot's (`C104_nan_refuted`, `C104_coincident_refuted`).
- **A planned step can be longer than the maximum step length.** The computed distance is below the limit although the distance of the stored positions is above it,
  by the rounding of the sum of the squares and of its root (`C105_strict_refuted`, a plan computed with the settings of accepted calls).
  `C105_plan` bounds the excess: 2^-48 of the limit. A margin of that size in setMaxStepLength is enough to be on the safe side.
- **A NaN time weight is accepted and disables the choice of the landing time.** setCostWeights tests `weight < 0` only. With NaN every cost is NaN, and after the first accepted
  sample `cost <= minCost` is never true again: the step lands at the first accepted sample whatever the others cost (`C106_nan_refuted`).
- **A NaN semi-axis is accepted and closes the free space.** setEllipse tests `a < 1e-10` only. With NaN no point is inside any more, so no step on the trajectory is accepted
  (`C107_nan_refuted`).
- **A minimum step time of 0 can switch the speed limits off.** It is accepted by setStepTimings. If the maximum length equals the nominal width, computeNewSteps installs
  0/0 as linear limit; setSaturations tests `< 0` only, and then neither the forward nor the lateral speed is limited (`C108_zero_time_refuted`, for every controller).
- **A tiny distance makes the angular velocity a NaN.** setPersonDistance refuses 0 only. With the smallest double and a person straight ahead, `c_theta/dx` is infinite and is multiplied by an
  error of 0. The NaN passes the saturation and, as in C101, takes the forward limit away (`C109_tiny_distance_refuted`).
- **An infinite conservative factor breaks the controller even without ellipses.** setFreeSpaceEllipseConservativeFactor accepts infinity. The blending factor is 0 without ellipses, infinity times 0
  is a NaN, and then every command is a NaN (`C109_infinite_factor_refuted`).
- **getPersonPosition never returns false.** "Time is out of range." is unreachable: getIntegratorSolution returns true or aborts in an assertion. Without assertions a time after the end silently gives
  the last pose, a time one integration step before the beginning converts a negative number to size_t, and a call before the first plan reads the front of an empty vector
  (`C110_never_false`, `C110_range_refuted`).
- **A point is projected out of the free space.** getIntersectionsWithLine solves a quadratic equation in x for every line whose direction is not within 1e-15 of an axis. For a line almost
  parallel to the y axis (in the ellipse space) the discriminant is lost to cancellation and multiplied by the slope. With the unit circle as free space, the robot at (0.9375, -0.25) and the person at
  (0.9375 + 2^-49, 4) the reference is at y = 31580642 m (`C111_stays_refuted`). With an offset of 2^-40 it is the position of the robot itself, so the robot does not follow
  (`C111_reach_refuted`). The person following controller follows that reference (`C111_reference_refuted`), against the assumption of C109 (`C111_tame_refuted`). Offsets of this size arise from rounding, for instance when robot and person are both straight ahead in y. Parametrising the line by its points, or exchanging the axes
  when the slope is above one, avoids the problem: for slopes of at most one the answer is on the border to 2^-41 and the rounding of the way back (`C111_flat`).

### Trajectories

* A phase that rounds to zero samples breaks the feet interpolation, the CoM height and makes ZMP and DCM fail:
  `C44_empty_switch_refuted`, `C52_empty_switch_refuted`; in doubles `C96_no_room_refuted` (steps every quarter of a
  second at 4 Hz). `C96_no_empty_phase` says when it cannot happen.
* The minimum jerk generator ignores the landing velocity; the left trajectory is replaced even if the right foot
  fails (remarks).
* Cubic spline feet: with the apex at a tenth of the swing the foot rises to 2.5 times the step height:
  `C73_step_height_refuted` (the exact factor is `overshoot`, 1 only for the apex in the middle); every positive landing
  velocity brings the foot below the ground: `C73_landing_velocity_refuted`, and so does a landing velocity below
  -3h/(a^2 (1-a) T): `C73_above_ground_iff_partial`.
* Feet in doubles: the smallest accepted apex times make the cubic splines refuse the walk: `C95_tiny_apex_refuted`; NaN is
  accepted as apex time and passes the check of the normalized time: `C95_nan_apex_refuted`.
* ZMP: one sample too many in binary64: `C51_overrun_refuted`, and for a whole walk from accepted settings (100 Hz, final
  switch of 1.12 s): `C94_overrun_refuted`; `C94_after_the_phases` says exactly when, `C94_bad_counts` lists the final
  switches at 100 Hz up to 3 s; velocities transformed as points:
  `C65_bias_refuted`, `C65_resting_zmp_refuted`; renamed foot prints underflow the search: `C48_renamed_refuted`,
  and foot prints with exchanged names put the ZMP under the swinging foot: `C49_renamed_refuted`;
  the initial acceleration is ignored (remark).
* DCM: guards of `setAlpha` and `setStillnessPercentage` cannot fire: `C57_guards_refuted`; stillness 1 always fails:
  `C57_full_stillness_refuted`; the fifth-order polynomial divides integers: `C54_initial_acceleration_refuted`;
  the default offset is not rotated: `C69_turned_feet_refuted`; alpha is not a share of the double support:
  `C68_share_refuted`; pieces shorter than a sample are extrapolated: `C55_short_piece_refuted`; two steps by the same
  foot give the wrong stance ZMP: `C67_same_foot_refuted`.
* DCM: stillness 0 leaves a non-finite zero-length last sub-trajectory; omega 0 is accepted and aborts (remarks).
