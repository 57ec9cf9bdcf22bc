{
 "claims": [
  {
   "property": "C01",
   "status": "proved",
   "theorems": [
    "C01_keepOnlyPresentStep",
    "C01_in_force_is_latest",
    "C01_failed_keep_preserves_refuted"
   ],
   "note": "Proved for every foot print with non-negative times (all that the API builds); the extra _refuted theorem shows the failure guarantee is lost for lists injected with negative times."
  },
  {
   "property": "C02",
   "status": "proved",
   "theorems": [
    "C02_history_times",
    "C02_history_sorted",
    "C02_refused_add_changes_nothing",
    "C02_accepted_add_appends",
    "C02_addStep_enforces_order_refuted"
   ],
   "note": "The _refuted theorem records that ordering is the caller's duty."
  },
  {
   "property": "C03",
   "status": "proved",
   "theorems": [
    "C03_pose_step_pose",
    "C03_step_pose_step"
   ],
   "note": ""
  },
  {
   "property": "C04",
   "status": "proved",
   "theorems": [
    "C04_parallel_step",
    "C04_nominal_width"
   ],
   "note": ""
  },
  {
   "property": "C05",
   "status": "proved",
   "theorems": [
    "C05_relative_position_invariant",
    "C05_backward_position_invariant",
    "C05_tiny_step_invariant",
    "C05_turn_invariant",
    "C05_feasibility_invariant",
    "C05_cost_invariant"
   ],
   "note": ""
  },
  {
   "property": "C06",
   "status": "proved",
   "theorems": [
    "C06_feasible_iff_admissible",
    "C06_limits_are_last_accepted"
   ],
   "note": "Exact: a backward limit of 0 rejects every step because the comparison is strict."
  },
  {
   "property": "C07",
   "status": "partial",
   "theorems": [
    "C07_navigation_partial",
    "C07_navigation_saturations_refuted",
    "C07_person_following_partial",
    "C07_base_controller",
    "C07_accepted_setter_takes_effect",
    "C07_accepted_iff_allowed",
    "C07_refused_setter_changes_nothing_partial",
    "C07_refused_weights_change_refuted",
    "C07_refused_integrator_step_change_refuted"
   ],
   "note": "Planner setters: two refuted (setCostWeights, setMaximumIntegratorStepSize). Controllers: all refused calls are atomic except the two ellipse setters (see C16) and the navigation saturations."
  },
  {
   "property": "C08",
   "status": "proved",
   "theorems": [
    "C08_limits",
    "C08_slow_when_turning",
    "C08_pass_through",
    "C08_nearest"
   ],
   "note": "For every history of setters and every raw command, also with the nearest-value characterisation."
  },
  {
   "property": "C09",
   "status": "proved",
   "theorems": [
    "C09_rollout",
    "C09_planner_step"
   ],
   "note": "For every controller, number of integration steps and non-negative step lengths; C09_planner_step instantiates the planner's saturations (minimum time positive)."
  },
  {
   "property": "C10",
   "status": "proved",
   "theorems": [
    "C10_pause",
    "C10_drive",
    "C10_release",
    "C10_navigation_pause"
   ],
   "note": "Rollouts split at the release time."
  },
  {
   "property": "C11",
   "status": "proved",
   "theorems": [
    "C11_insertions",
    "C11_refused",
    "C11_order_always"
   ],
   "note": "std::sort is any function returning a sorted rearrangement."
  },
  {
   "property": "C12",
   "status": "proved",
   "theorems": [
    "C12_fails_iff",
    "C12_after_last",
    "C12_between",
    "C12_at_stored",
    "C12_covers"
   ],
   "note": "Also covers equal start times (the last stored one wins)."
  },
  {
   "property": "C13",
   "status": "proved",
   "theorems": [
    "C13_future_kept",
    "C13_succeeds_iff"
   ],
   "note": "The iterator compared after the last pop_front is formally invalidated; modelled as the intended end test (DESIGN.md)."
  },
  {
   "property": "C14",
   "status": "proved",
   "theorems": [
    "C14_velocity",
    "C14_error_decays"
   ],
   "note": "Velocity identity at every instant and exponential decay along any differentiable unsaturated motion."
  },
  {
   "property": "C15",
   "status": "partial",
   "theorems": [
    "C15_reference_in_free_space_partial",
    "C15_untouched",
    "C15_sheared_refuted"
   ],
   "note": "Proved for all ellipses given by semi-axes, any history, any content of the uninitialised tangent entry (as a real). Refuted for sheared image matrices accepted by setEllipse."
  },
  {
   "property": "C16",
   "status": "partial",
   "theorems": [
    "C16_refused_iff",
    "C16_negative_offsets_partial",
    "C16_refused_ellipse_refuted"
   ],
   "note": "Refuted: a refused ellipse replaces the previous one. Proved: exact refusal condition and atomicity for negative offsets."
  },
  {
   "property": "C17",
   "status": "proved",
   "theorems": [
    "C17_membership",
    "C17_setter",
    "C17_unset"
   ],
   "note": ""
  },
  {
   "property": "C18",
   "status": "proved",
   "theorems": [
    "C18_inside_or_boundary",
    "C18_closest",
    "C18_segment",
    "C18_fallback",
    "C18_unset"
   ],
   "note": "Includes: from a centre inside, the result lies on the segment; fallback is radial."
  },
  {
   "property": "C19",
   "status": "partial",
   "theorems": [
    "C19_on_ellipse",
    "C19_on_line",
    "C19_complete",
    "C19_no_intersection_partial",
    "C19_band_refuted"
   ],
   "note": "Soundness and completeness outside the 1e-15 band; inside the band the negative answer is refuted."
  },
  {
   "property": "C20",
   "status": "partial",
   "theorems": [
    "C20_round_trip_partial",
    "C20_refused",
    "C20_round_trip_refuted"
   ],
   "note": "Exact acceptance condition proved; refuted for rotations beyond 45 degrees (sign error) and areas below 1e-10."
  },
  {
   "property": "C21",
   "status": "partial",
   "theorems": [
    "C21_tangent_partial",
    "C21_unwritten_entry_refuted",
    "C21_tangent_iff"
   ],
   "note": "Depends on an uninitialised matrix entry: refuted. On the boundary the tangent is right exactly when the entry is zero or the point is an end of the first axis (C21_tangent_iff)."
  },
  {
   "property": "C22",
   "status": "partial",
   "theorems": [
    "C22_target_in_path",
    "C22_starts_at_second",
    "C22_never_outside",
    "C22_query_without_path_refuted",
    "C22_no_path_undefined"
   ],
   "note": "With path, limits and feedback given, proved for every later history. Refuted for queries before any path: uninitialised flag and out-of-range read."
  },
  {
   "property": "C23",
   "status": "proved",
   "theorems": [
    "C23_index_monotone",
    "C23_stays_stopped",
    "C23_moves_on_iff_reached"
   ],
   "note": "For every history without a new path; the stop also requires the time step unchanged."
  },
  {
   "property": "C24",
   "status": "partial",
   "theorems": [
    "C24_own_limits_partial",
    "C24_body_frame_refuted"
   ],
   "note": "Angular and planar speed bounds proved. Refuted for the body-frame forward and lateral limits: they are applied along the world axes."
  },
  {
   "property": "C25",
   "status": "partial",
   "theorems": [
    "C25_heading_iff",
    "C25_heading_partial",
    "C25_same_direction",
    "C25_two_turns_refuted"
   ],
   "note": "Within half a turn exactly for headings up to 3 pi in magnitude (C25_heading_iff); refuted beyond (a single turn is removed)."
  },
  {
   "property": "C26",
   "status": "partial",
   "theorems": [
    "C26_planned_steps_admissible_partial",
    "C26_terminal_step_unchecked_refuted"
   ],
   "note": "Searched steps and the first terminal step are covered; refuted for the second terminal step (not checked against the free space, after the horizon). Parallel steps are not checked by the code against the limits."
  },
  {
   "property": "C27",
   "status": "partial",
   "theorems": [
    "C27_steps_alternate_and_times_increase_partial",
    "C27_zero_nominal_time_refuted"
   ],
   "note": "Holds for a positive nominal step time; refuted for the accepted nominal time 0."
  },
  {
   "property": "C28",
   "status": "proved",
   "theorems": [
    "C28_search_has_trace",
    "C28_landing_minimises_cost"
   ],
   "note": "Stated over the sequence of loop states; C28_search_has_trace ties it to a finished search."
  },
  {
   "property": "C29",
   "status": "partial",
   "theorems": [
    "C29_iterations_partial",
    "C29_zero_period_plans_nothing",
    "C29_plan_needs_period",
    "C29_planning_terminates_partial",
    "C29_zero_period_never_returns_refuted"
   ],
   "note": "Terminates for every accepted configuration with positive period, within an explicit bound quadratic in the number of periods of the horizon; with the accepted period 0 every call refuses at once or runs for ever (C29_zero_period_plans_nothing), so a returned plan needs a positive period (C29_plan_needs_period)."
  },
  {
   "property": "C30",
   "status": "proved",
   "theorems": [
    "C30_terminal_step_ends_parallel"
   ],
   "note": ""
  },
  {
   "property": "C31",
   "status": "partial",
   "theorems": [
    "C31_standing_still_synchronises",
    "C31_one_empty_foot_refuted"
   ],
   "note": "Holds for every call that returns; the extra _refuted theorem shows that with one empty foot print and no terminal step the call reads an uninitialised step."
  },
  {
   "property": "C32",
   "status": "proved",
   "theorems": [
    "C32_configuration_invariants",
    "C32_enforced_limits_are_the_reported_ones"
   ],
   "note": ""
  },
  {
   "property": "C33",
   "status": "proved",
   "theorems": [
    "C33_phase_boundaries"
   ],
   "note": ""
  },
  {
   "property": "C34",
   "status": "proved",
   "theorems": [
    "C34_complementary"
   ],
   "note": ""
  },
  {
   "property": "C35",
   "status": "proved",
   "theorems": [
    "C35_no_drift"
   ],
   "note": "Real-number arithmetic."
  },
  {
   "property": "C36",
   "status": "proved",
   "theorems": [
    "C36_swings_match_steps",
    "C36_walks_accepted"
   ],
   "note": ""
  },
  {
   "property": "C37",
   "status": "partial",
   "theorems": [
    "C37_wrap_iff",
    "C37_no_wrap_partial",
    "C37_switch_within_step",
    "C37_late_start_refuted"
   ],
   "note": "Switch/step/merge counters never wrap for any accepted setting (C37_switch_within_step). With a terminal switch of at least half a sampling period the computation leaves the range exactly when the walk begins a sampling period or more after the terminal switch of its last step (C37_wrap_iff); that case is reachable (C37_late_start_refuted)."
  },
  {
   "property": "C38",
   "status": "partial",
   "theorems": [
    "C38_merge_points_partial",
    "C38_merge_points_strict_partial",
    "C38_double_support_refuted",
    "C38_strict_order_refuted"
   ],
   "note": "Holds when the terminal switch has a sample; strict order when every swing has a sample; both exceptions refuted by concrete runs."
  },
  {
   "property": "C39",
   "status": "proved",
   "theorems": [
    "C39_ordered_without_loss",
    "C39_refused_iff_duplicate"
   ],
   "note": ""
  },
  {
   "property": "C40",
   "status": "partial",
   "theorems": [
    "C40_one_past_the_end_partial",
    "C40_inside_lists_refuted"
   ],
   "note": "Refuted as stated: one past the end is addressed in ordinary use; proved that it is never further than that."
  },
  {
   "property": "C41",
   "status": "proved",
   "theorems": [
    "C41_settings_invariant",
    "C41_refused_changes_nothing",
    "C41_accepted_sets"
   ],
   "note": ""
  },
  {
   "property": "C42",
   "status": "partial",
   "theorems": [
    "C42_arguments_stored",
    "C42_kept_partial",
    "C42_arguments_refuted",
    "C42_regenerate_refuted"
   ],
   "note": "As stated refuted: generateFromFootPrints stores its arguments before checking them, and reGenerate trims or empties the foot prints before it can fail. Proved: what is stored after every call, and the cases where the foot prints survive."
  },
  {
   "property": "C43",
   "status": "proved",
   "theorems": [
    "C43_only_the_corrected_feet",
    "C43_zmp_is_told",
    "C43_planner_is_asked",
    "C43_times"
   ],
   "note": "The planner is an oracle here (it is modelled in Planner.v); yaw extraction by iDynTree assumed to be atan2 of the first column. Times, positions and headings handed to the planner are characterised exactly."
  },
  {
   "property": "C44",
   "status": "partial",
   "theorems": [
    "C44_still_outside_swing_partial",
    "C44_spline_still_outside_swing_partial",
    "C44_regular_walks",
    "C44_empty_switch_refuted"
   ],
   "note": "Proved for every generated walk in which no phase is empty (also for the cubic spline generator, whose swing interpolation is an oracle), with conditions on a walk that exclude empty phases. Refuted otherwise: a switch phase that rounds to zero samples makes the interpolation consume a step twice and fail."
  },
  {
   "property": "C45",
   "status": "proved",
   "theorems": [
    "C45_swings_within_bounds"
   ],
   "note": "For every history of setters with a non-negative height the swing interpolation succeeds with as many samples as the swing has instants, all on the segment, with height in range. C44_still_outside_swing_partial carries it to whole walks."
  },
  {
   "property": "C46",
   "status": "proved",
   "theorems": [
    "C46_derivatives",
    "C46_samples_on_curves"
   ],
   "note": "Minimum-jerk function and the samples of a swing. The conversion of pitch and yaw rates to angular velocity is done by iDynTree and not modelled."
  },
  {
   "property": "C47",
   "status": "proved",
   "theorems": [
    "C47_complementary_shares"
   ],
   "note": "Every history of settings, every pair of foot prints, every success. The range needs the contract of iDynTree::CubicSpline (assumed)."
  },
  {
   "property": "C48",
   "status": "partial",
   "theorems": [
    "C48_lookup_partial",
    "C48_names",
    "C48_renamed_refuted"
   ],
   "note": "Proved for foot prints whose steps carry the present name (always the case unless setFootName is called on a non-empty foot print): total, succeeds exactly under the stated conditions, finds the latest steps. Refuted for renamed foot prints: the generator accepts them and the search underflows."
  },
  {
   "property": "C49",
   "status": "partial",
   "theorems": [
    "C49_between_the_feet_partial",
    "C49_renamed_refuted"
   ],
   "note": "Proved for every success with named foot prints (see C48) and an initial share in [0,1] at rest. Refuted for foot prints whose names are exchanged after steps were added (C49_renamed_refuted): the ZMP is then under the swinging foot."
  },
  {
   "property": "C50",
   "status": "proved",
   "theorems": [
    "C50_states_at_merge_points",
    "C50_any_merge_points"
   ],
   "note": "For every success of a generated walk; for arbitrary lists if strictly increasing and inside the trajectory. Duplicates, which would be missed, come with an empty phase, on which the computation fails before."
  },
  {
   "property": "C51",
   "status": "partial",
   "theorems": [
    "C51_inside_buffers_partial",
    "C51_overrun_refuted",
    "C51_overrun_at_most_one"
   ],
   "note": "In exact arithmetic the weights and local ZMPs stay inside their buffers. Refuted in binary64 (terminal switch 1.12 s, sampling time 10 ms: one sample too many); the excess is at most one sample (Flocq, up to 2^50 samples)."
  },
  {
   "property": "C52",
   "status": "partial",
   "theorems": [
    "C52_settings",
    "C52_nominal_in_double_support_partial",
    "C52_empty_switch_refuted"
   ],
   "note": "Proved for walks without empty phases and every spline meeting the contract of iDynTree::CubicSpline (clamped cubic spline, assumed): double support nominal and still, single support one bump between the two heights. Refuted for walks with an empty switch phase (the generation fails)."
  },
  {
   "property": "C53",
   "status": "proved",
   "theorems": [
    "C53_pendulum",
    "C53_only_solution"
   ],
   "note": "C53_only_solution: the curve is the unique solution of the pendulum equation through its boundary condition."
  },
  {
   "property": "C54",
   "status": "proved",
   "theorems": [
    "C54_joins",
    "C54_initial_acceleration_refuted"
   ],
   "note": "Both polynomials. C54_initial_acceleration_refuted records a latent defect: the fifth-order polynomial ignores a non-zero initial acceleration (integer division); the code only ever passes zero."
  },
  {
   "property": "C55",
   "status": "partial",
   "theorems": [
    "C55_continuous_partial",
    "C55_short_piece_refuted",
    "C55_ends_between_the_feet",
    "C55_stands_still",
    "C55_pauses"
   ],
   "note": "Proved for every accepted walk without empty phases whose double-support pieces last at least one sampling period, omega > 0 and stillness in [0,1). The refuted theorem shows a shorter piece: samples are extrapolated past its end and the sampled DCM leaves the continuous curve."
  },
  {
   "property": "C56",
   "status": "proved",
   "theorems": [
    "C56_shares",
    "C56_weights"
   ],
   "note": "Weights are shares exactly when the feet ZMPs differ (C56_shares), for every run (C56_weights)."
  },
  {
   "property": "C57",
   "status": "partial",
   "theorems": [
    "C57_ranges_partial",
    "C57_invariant",
    "C57_guards_refuted",
    "C57_full_stillness_refuted"
   ],
   "note": "setOmega refuses negative values and the last-step offset is checked; the guards of setAlpha and setStillnessPercentage can never fire (C57_guards_refuted), and a stillness of 1 is accepted although generation then fails (C57_full_stillness_refuted). omega = 0 is accepted."
  },
  {
   "property": "C58",
   "status": "partial",
   "theorems": [
    "C58_dcm_state_partial",
    "C58_weight_partial",
    "C58_velocity_stays",
    "C58_dcm_used_partial",
    "C58_weight_used_partial",
    "C58_failure_refuted",
    "C58_stale_velocity_refuted"
   ],
   "note": "Holds in every session when no generator runs after the one concerned; refuted otherwise (a later plug-in fails and the state is already used), and the used DCM velocity still governs later reGenerate calls (C58_velocity_stays: in every session it is the one set last, or zero once a generation has run without a given state). The claim that the state is the one used needs the usual regularity of C55, or an end switch of at least half a sample for the weight."
  },
  {
   "property": "C59",
   "status": "proved",
   "theorems": [
    "C59_no_deadlock",
    "C59_all_calls_return",
    "C59_mutexes_used_properly"
   ],
   "note": "Any number of threads, any finite programs of calls, every schedule: no deadlock, every schedule ends with all calls returned and all mutexes free, no relock, no foreign unlock. Bodies include all branches and early returns."
  },
  {
   "property": "C60",
   "status": "partial",
   "theorems": [
    "C60_unlocked_methods_refuted",
    "C60_race_iff_incompatible",
    "C60_races_refuted",
    "C60_no_race_partial",
    "C60_one_generating_thread_partial",
    "C60_own_plan_refuted",
    "C60_single_generator_partial"
   ],
   "note": "Refuted as stated: thirteen kinds of method touch shared data without the lock, generate and reGenerate release the lock between planning and generating. Proved: which pairs of calls race (exact, two threads), race freedom for protected methods and for one generating thread, and own-plan generation with one generating thread."
  },
  {
   "property": "C61",
   "status": "partial",
   "theorems": [
    "C61_reported_linear_partial",
    "C61_reported_angular_refuted",
    "C61_angular_iff"
   ],
   "note": "Linear and lateral limits hold; the reported angular limit holds for every command exactly when there is no turning gain or turning is forbidden (C61_angular_iff), refuted otherwise."
  },
  {
   "property": "C62",
   "status": "partial",
   "theorems": [
    "C62_reported_axes_partial",
    "C62_sheared_refuted",
    "C62_axes_iff"
   ],
   "note": "First column and product of axes proved; the reported axes and angle describe the matrix exactly when its columns are orthogonal (C62_axes_iff), refuted by a sheared matrix."
  },
  {
   "property": "C63",
   "status": "partial",
   "theorems": [
    "C63_straight_to_target",
    "C63_turns_the_short_way_partial",
    "C63_turns_when_aligned_refuted"
   ],
   "note": "Direction and speed of motion proved up to the clipping tolerance; short-way turning proved for heading differences up to 3 pi; refuted: it turns at full rate when already aligned."
  },
  {
   "property": "C64",
   "status": "proved",
   "theorems": [
    "C64_no_height_jump"
   ],
   "note": "Bound on consecutive heights, including the transitions from and to the ground."
  },
  {
   "property": "C65",
   "status": "partial",
   "theorems": [
    "C65_bias_refuted",
    "C65_resting_zmp_refuted",
    "C65_first_phase_partial"
   ],
   "note": "Proved in the first switch phase when it does not pause. Refuted afterwards: reported velocities and accelerations are off by the weighted world positions of the steps (vectors transformed as points)."
  },
  {
   "property": "C66",
   "status": "proved",
   "theorems": [
    "C66_search_matches_phases"
   ],
   "note": "Alternating walks with strictly increasing impact times per foot, any success of the ZMP computation."
  },
  {
   "property": "C67",
   "status": "partial",
   "theorems": [
    "C67_stance_zmp_partial",
    "C67_same_foot_refuted"
   ],
   "note": "Proved when the feet alternate; refuted when the first planned step is made by the foot that landed last: the ZMP stays at the place the swinging foot has left."
  },
  {
   "property": "C68",
   "status": "partial",
   "theorems": [
    "C68_meeting_partial",
    "C68_share_refuted"
   ],
   "note": "For every alpha the meeting instant is alpha times the sum of the two boundary times; only for alpha = 1/2 is that a share of the double support. Refuted for alpha = 0 and alpha = 1."
  },
  {
   "property": "C69",
   "status": "partial",
   "theorems": [
    "C69_default_start_partial",
    "C69_turned_feet_refuted",
    "C69_start"
   ],
   "note": "The start is proved for every walk: between the feet with the offsets added along the world axes; that is between the ZMPs of the feet exactly when the rotations of the offsets cancel (C69_start). Refuted for turned feet."
  },
  {
   "property": "C70",
   "status": "proved",
   "theorems": [
    "C70_one_length"
   ],
   "note": "All sessions of one thread, any plan, external splines arbitrary."
  },
  {
   "property": "C71",
   "status": "partial",
   "theorems": [
    "C71_no_failure_partial",
    "C71_after_failure_refuted"
   ],
   "note": "Refuted after a failed generation; proved as long as none has failed and plug-ins were attached first."
  },
  {
   "property": "C72",
   "status": "proved",
   "theorems": [
    "C72_swing_along_segment",
    "C72_walk"
   ],
   "note": "Splines enter through their contract (clamped cubic through the given points); C72_walk covers whole walks without an empty phase."
  },
  {
   "property": "C73",
   "status": "partial",
   "theorems": [
    "C73_default_partial",
    "C73_height_bound_partial",
    "C73_above_ground_iff_partial",
    "C73_above_ground_partial",
    "C73_step_height_refuted",
    "C73_landing_velocity_refuted"
   ],
   "note": "Refuted as stated: apex away from the middle overshoots, positive landing velocities go below the ground. Proved: the exact maximum for zero landing velocity, the exact condition for staying above the ground, and the full claim for the default apex and landing velocity."
  },
  {
   "property": "C74",
   "status": "proved",
   "theorems": [
    "C74_plans_iff"
   ],
   "note": "Both directions, for every configuration reachable by setter calls."
  },
  {
   "property": "C75",
   "status": "proved",
   "theorems": [
    "C75_plan_is_a_walk",
    "C75_generate_succeeds",
    "C75_time_for_the_first_step_refuted"
   ],
   "note": "Plan shape, guaranteed time before the first step, and success of generate. The refuted theorem is a finding about a stronger expectation: the minimum step time does not count from the call."
  },
  {
   "property": "C76",
   "status": "partial",
   "theorems": [
    "C76_never_refused_partial",
    "C76_late_call_refuted"
   ],
   "note": "Proved for sessions of one generate followed by reGenerate calls; with plug-ins each call must leave enough time before the first step. Without that condition the claim is false (C76_late_call_refuted)."
  },
  {
   "property": "C77",
   "status": "proved",
   "theorems": [
    "C77_minjerk_swing",
    "C77_spline_swing",
    "C77_rest",
    "C77_minjerk",
    "C77_spline"
   ],
   "note": "Both feet generators, whatever trajectories they accept: C77_minjerk and C77_spline decompose the reports into rests and swings; C77_minjerk_swing and C77_spline_swing give the rigid motions. iDynTree rotation formulas as listed in DESIGN.md 5.3; cubic splines by contract."
  },
  {
   "property": "C78",
   "status": "partial",
   "theorems": [
    "C78_feet_partial",
    "C78_spline_feet_partial",
    "C78_height_partial",
    "C78_weight",
    "C78_planner_keeps_places",
    "C78_merge_points",
    "C78_early_landing_refuted"
   ],
   "note": "Feet (both generators), CoM height and weight are continuous at every instant of a double support that is not before the impact time of a foot already put down (C78_feet_partial, C78_spline_feet_partial, C78_height_partial, C78_weight); C78_merge_points: every merge point is such an instant if the switches are long enough for the sampling time; C78_planner_keeps_places discharges the hypothesis about the planner. False at merge points that precede the impact time by rounding: C78_early_landing_refuted. Walks with empty phases are excluded (see C44)."
  },
  {
   "property": "C79",
   "status": "proved",
   "theorems": [
    "C79_planned_in_turns",
    "C79_walked_in_turns",
    "C79_results_agree"
   ],
   "note": "C79_planned_in_turns (planner), C79_walked_in_turns (order of the steps in the generator), C79_results_agree (sessions as in C76, all plug-ins). Positions only: the reported ZMP velocity is off, see C65."
  },
  {
   "property": "C80",
   "status": "proved",
   "theorems": [
    "C80_exact_instance",
    "C80_phases",
    "C80_swings_match_steps",
    "C80_no_wrap",
    "C80_merge_points",
    "C80_settings",
    "C80_share_below_one_refuted"
   ],
   "note": "Structure for every monotone, odd rounding that is exact on 0, 1/2, 1 and doubles (RoundedGenProofs), instantiated with binary64; C80_exact_instance: the exact model is the same definition with the identity. C80_share_below_one_refuted: the share of the switch phase can be exactly 1 in binary64. Not covered: overflow, NaN, fused multiply-add."
  },
  {
   "property": "C81",
   "status": "proved",
   "theorems": [
    "C81_walks_accepted",
    "C81_drift_bound",
    "C81_half_sample_refuted"
   ],
   "note": "C81_half_sample_refuted: the slack cannot be dropped. Overflow and NaN: C83, C85. Not covered: fused multiply-add."
  },
  {
   "property": "C82",
   "status": "proved",
   "theorems": [
    "C82_exact_models",
    "C82_same_calls_accepted",
    "C82_stored_values",
    "C82_ranges"
   ],
   "note": "Doubles.v: setters over an abstract arithmetic; C82_exact_models ties the exact instance to the setter models of the other files. C82_ranges covers infinite arguments; NaN is C85."
  },
  {
   "property": "C83",
   "status": "proved",
   "theorems": [
    "C83_rounded_model",
    "C83_defined",
    "C83_phases",
    "C83_tiny_period_refuted"
   ],
   "note": "C83_rounded_model: equality with the rounded run of C80/C81; C83_defined and C83_phases state consequences directly. C83_tiny_period_refuted: the lower bound on the period cannot be dropped."
  },
  {
   "property": "C84",
   "status": "partial",
   "theorems": [
    "C84_order_partial",
    "C84_order_refuted",
    "C84_order_iff"
   ],
   "note": "< is a strict weak order on the stored times exactly when no NaN is stored together with two different numbers (C84_order_iff); refuted as stated since addStep accepts NaN (C84_order_refuted)."
  },
  {
   "property": "C85",
   "status": "partial",
   "theorems": [
    "C85_no_nan_partial",
    "C85_setters_refuted",
    "C85_ranges_refuted",
    "C85_infinity_refuted",
    "C85_period_refuted",
    "C85_time_refuted",
    "C85_share_refuted"
   ],
   "note": "Refuted as stated: no setter refuses NaN (C85_setters_refuted for every field), and generateFromFootPrints reaches undefined conversions. Proved part: no NaN arises from calls without NaN, except the two of C85_infinity_refuted."
  },
  {
   "property": "C86",
   "status": "proved",
   "theorems": [
    "C86_exact_model",
    "C86_returns",
    "C86_lost_period_refuted"
   ],
   "note": "computeNewSteps in IEEE doubles with the geometry as an arbitrary oracle; the exact planner is an instance (C86_exact_model). Without the condition on the period: C86_lost_period_refuted."
  },
  {
   "property": "C87",
   "status": "proved",
   "theorems": [
    "C87_plan",
    "C87_equal_times_refuted"
   ],
   "note": "Terminal steps need a nominal time not below the spacing of the doubles; otherwise C87_equal_times_refuted."
  },
  {
   "property": "C88",
   "status": "proved",
   "theorems": [
    "C88_plan_then_phases"
   ],
   "note": "First plans only (no step or one step per foot before); the factor 2^-48 on the largest time absorbs the rounding of planner and generator."
  },
  {
   "property": "C89",
   "status": "proved",
   "theorems": [
    "C89_exact_model",
    "C89_loop",
    "C89_returns",
    "C89_continues"
   ],
   "note": "Positions, angles and the plug-in generators are oracles or left out; generate on feet with more than one stored step is C76 (C76_late_call_refuted)."
  },
  {
   "property": "C90",
   "status": "proved",
   "theorems": [
    "C90_exact_model",
    "C90_exact_samples",
    "C90_no_abort",
    "C90_every_instant",
    "C90_after_the_phases",
    "C90_no_stillness_refuted"
   ],
   "note": "C90_exact_model ties the times model to DCM.v; C90_after_the_phases composes with the phase computation (no UB; success and every instant served under k_long). Positions, velocities and weights are not part of the doubles model. C90_no_stillness_refuted: stillness 0 aborts."
  },
  {
   "property": "C91",
   "status": "proved",
   "theorems": [
    "C91_phases_any_arithmetic"
   ],
   "note": "Uses no law of the arithmetic; stated with drawn (AnyArithSpec.v)."
  },
  {
   "property": "C92",
   "status": "partial",
   "theorems": [
    "C92_values_partial",
    "C92_copy_refuted",
    "C92_assign_refuted",
    "C92_copy_is_alias",
    "C92_constructor",
    "C92_one_list_refuted",
    "C92_no_ub",
    "C92_moved_from_refuted"
   ],
   "note": "programs that neither copy nor assign foot prints: proved as a refinement of a heap of shared lists to values; copies, assignments and two foot prints on one list are refuted (they alias), methods on moved-from objects too"
  },
  {
   "property": "C93",
   "status": "partial",
   "theorems": [
    "C93_state_shown",
    "C93_given_decides",
    "C93_default_resets",
    "C93_first_sample_partial",
    "C93_landing_times_refuted"
   ],
   "note": "The state shown after any session and the decision of reGenerate that follows from it are proved without conditions; that the first reported sample is this state needs the regularity of C55 (run_ok). C93_landing_times_refuted records the consequence for a user who never gives a state."
  },
  {
   "property": "C94",
   "status": "proved",
   "theorems": [
    "C94_exact_model",
    "C94_weights",
    "C94_overrun_iff",
    "C94_powers_of_two",
    "C94_after_the_phases",
    "C94_overrun_refuted"
   ],
   "note": "Complete characterisation in doubles; the overrun that remains is the finding C94_overrun_refuted. Shift instants that increase strictly are a hypothesis, which C96 proves when the settings leave room. Positions and weights themselves are in exact arithmetic (C47 to C51)."
  },
  {
   "property": "C95",
   "status": "proved",
   "theorems": [
    "C95_exact_model",
    "C95_feet",
    "C95_height",
    "C95_after_the_phases",
    "C95_tiny_apex_refuted",
    "C95_nan_apex_refuted"
   ],
   "note": "The times and numbers of samples in doubles; positions, angles and heights are in exact arithmetic (C44 to C46, C52, C72, C73). Strictly increasing shift instants are a hypothesis, which C96 proves when the settings leave room. The restriction on the apex for the cubic splines is needed: C95_tiny_apex_refuted; NaN as apex: C95_nan_apex_refuted."
  },
  {
   "property": "C96",
   "status": "proved",
   "theorems": [
    "C96_no_empty_phase",
    "C96_no_room_refuted"
   ],
   "note": "Without room a phase can be empty and the feet are refused: C96_no_room_refuted."
  },
  {
   "property": "C97",
   "status": "proved",
   "theorems": [
    "C97_plan_to_trajectories"
   ],
   "note": "Composition of C88, C96, C90, C94 and C95 for a plan from the initial time; positions are not part of the doubles model."
  },
  {
   "property": "C98",
   "status": "proved",
   "theorems": [
    "C98_session_to_trajectories"
   ],
   "note": "Any history of calls (sane: arguments finite and fitting the settings); hypotheses of ample are on settings and times only; foot prints left by a failing planner are computed (C99)."
  },
  {
   "property": "C99",
   "status": "proved",
   "theorems": [
    "C99_continues_after_failure",
    "C99_failed_plan",
    "C99_old_steps_stay"
   ],
   "note": "computeNewSteps in IEEE doubles with the geometry as an arbitrary oracle; each way of returning false is covered."
  },
  {
   "property": "C100",
   "status": "proved",
   "theorems": [
    "C100_rounded",
    "C100_doubles",
    "C100_tie_refuted"
   ],
   "note": "C100_rounded for the rounded arithmetic, C100_doubles for binary64 itself, C100_tie_refuted shows the condition is needed; the range conditions are those of C83 and no impact time precedes the initial time."
  },
  {
   "property": "C101",
   "status": "proved",
   "theorems": [
    "C101_limits",
    "C101_slow_when_turning",
    "C101_pass_through",
    "C101_exact_model",
    "C101_nan_turn_refuted",
    "C101_infinite_limit_refuted",
    "C101_fast_turn_refuted"
   ],
   "note": "cos, sin, atan2 and pow(x, 2) are arbitrary functions. NaN commands, infinite limits with zero factors and angular limits whose square overflows break the limits (refuted)."
  },
  {
   "property": "C102",
   "status": "proved",
   "theorems": [
    "C102_target_in_path",
    "C102_monotone",
    "C102_stays_stopped",
    "C102_defined",
    "C102_turning",
    "C102_exact_model",
    "C102_nan_refuted",
    "C102_infinite_refuted"
   ],
   "note": "cos, sin, atan2 and pow(x, 2) are arbitrary functions. Headings that are NaN or infinite break it (refuted)."
  },
  {
   "property": "C103",
   "status": "proved",
   "theorems": [
    "C103_order",
    "C103_fails_iff",
    "C103_covers",
    "C103_after_last",
    "C103_between",
    "C103_stored",
    "C103_past_gone",
    "C103_exact_model",
    "C103_box_refuted",
    "C103_infinite_refuted",
    "C103_nan_accepted"
   ],
   "note": "NaN times are excluded and finite times required for the line; the refuted theorems show both matter. Clearings up to 2^40."
  },
  {
   "property": "C104",
   "status": "proved",
   "theorems": [
    "C104_shares",
    "C104_follows",
    "C104_weights",
    "C104_after_the_plan",
    "C104_at_a_foot",
    "C104_nan_refuted",
    "C104_coincident_refuted",
    "C104_exact_model"
   ],
   "note": "The conditions are in the statement; C104_nan_refuted and C104_coincident_refuted show what happens without them. C104_exact_model is the instance with exact arithmetic."
  },
  {
   "property": "C105",
   "status": "proved",
   "theorems": [
    "C105_exact_model",
    "C105_every_step_examined",
    "C105_accepted",
    "C105_plan",
    "C105_strict_refuted"
   ],
   "note": "Limits up to 2^-48 of the maximum length; C105_strict_refuted shows that they are exceeded in the last place. Trajectory of the unicycle arbitrary, cos, sin and pow(x,2) within 2^-52."
  },
  {
   "property": "C106",
   "status": "proved",
   "theorems": [
    "C106_least",
    "C106_plan",
    "C106_nan_refuted"
   ],
   "note": "Doubles throughout the search; exact cost up to rounding for the planner's own cost, costs that are numbers; a NaN weight is refuted (C106_nan_refuted)."
  },
  {
   "property": "C107",
   "status": "proved",
   "theorems": [
    "C107_exact_model",
    "C107_inside",
    "C107_plan",
    "C107_nan_refuted"
   ],
   "note": "Doubles; semi-axes up to 2^100 and finite angles, cos and sin within 2^-52. A NaN semi-axis is refuted (C107_nan_refuted)."
  },
  {
   "property": "C108",
   "status": "proved",
   "theorems": [
    "C108_travel",
    "C108_limits",
    "C108_planner_step",
    "C108_exact_model",
    "C108_zero_time_refuted"
   ],
   "note": "Conditions of the statement are needed: a minimum step time of 0 is accepted and can make the linear limit NaN (C108_zero_time_refuted). The controller is arbitrary; the integrator is external (state plus length times dynamics)."
  },
  {
   "property": "C109",
   "status": "proved",
   "theorems": [
    "C109_law",
    "C109_loop",
    "C109_no_ellipse",
    "C109_exact_model",
    "C109_tiny_distance_refuted",
    "C109_infinite_factor_refuted"
   ],
   "note": "for usual sizes; a tiny distance (C109_tiny_distance_refuted) and an infinite conservative factor (C109_infinite_factor_refuted) make the commands NaN; what the ellipses return is assumed finite and bounded, which holds without ellipses (C109_no_ellipse) but not for every direction with one (C111_tame_refuted)"
  },
  {
   "property": "C110",
   "status": "proved",
   "theorems": [
    "C110_nearest",
    "C110_speed",
    "C110_person",
    "C110_never_false",
    "C110_range_refuted"
   ],
   "note": "The list of samples of the external integrator is assumed to be a grid; requests out of range are refuted."
  },
  {
   "property": "C111",
   "status": "partial",
   "theorems": [
    "C111_exact_reference",
    "C111_tame_refuted",
    "C111_reference_refuted",
    "C111_exact_model",
    "C111_object",
    "C111_cases",
    "C111_border",
    "C111_lands_partial",
    "C111_stays_refuted",
    "C111_reach_refuted",
    "C111_slope",
    "C111_flat"
   ],
   "note": "Refuted as written: the intersection with a line almost parallel to the y axis can be 30000 km outside (C111_stays_refuted) or at the starting point (C111_reach_refuted), and the person following controller follows it (C111_reference_refuted). Proved: the exact instance, all cases of the answer for any arithmetic, that the point of the ellipse space is on the unit circle to 2^-50 (line along an axis), 2^-48 (no intersection) and 2^-46 (1 + delta^2 + |sigma|) for a line y = sigma x + delta with coefficients up to 2^20, and that the returned point is on the exact ellipse up to this and the rounding of the way back (C111_lands_partial; missing: steeper lines, for which it is false). In terms of the points: for a robot found inside, a person found outside and a slope of at most 2^k in the ellipse space, k up to 18, the error on the border is 2^(2k-41) and the way back (C111_slope, C111_flat)."
  }
 ]
}