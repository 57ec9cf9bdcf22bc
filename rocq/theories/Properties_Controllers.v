(** Properties C08, C09, C10 and C61: speed limits, rollouts, direct control. *)
From Coq Require Import Reals Lra Lia List Bool.
From Verif Require Import Prelude EvalTac UnicycleFoot Controllers FootSpec ControlSpec ControlProofs
  Ellipse Optimization Planner PlannerConfigSpec.
Import ListNotations.
Open Scope R_scope.

(** * C08 *)
(** Once saturations were accepted every command respects the values last accepted. *)
Theorem C08_limits : forall ops lin ang raw, set_limits ops = Some (lin, ang) ->
  respects lin ang (set_turn ops) (set_back ops) (set_side ops) (base_sat (base_history ops) raw).
Proof.
  intros ops lin ang raw H. pose proof (history_agrees ops) as [A B C D]. rewrite H in A. destruct A as (A1 & A2 & A3 & A4).
  pose proof (base_history_ok ops) as Hb. assert (Hs : sat_set (base_history ops)) by (split; lra).
  destruct (base_sat_bounds _ raw Hb Hs) as (P & Q & S1). cbv zeta in *. unfold respects, speed_limit, turning_speed in *.
  rewrite A1, A2, B, C, D in *. apply abs_bounds in P. apply abs_bounds in S1.
  split; [lra|]. split; [|lra]. rewrite Ropp_mult_distr_l. exact Q.
Qed.
Print Assumptions C08_limits.

(** Turning faster never allows a larger forward speed, and the speed never exceeds the maximum. *)
Theorem C08_slow_when_turning : forall ops lin ang w w', set_limits ops = Some (lin, ang) -> Rabs w <= Rabs w' ->
  0 <= turning_speed lin (set_turn ops) w' <= turning_speed lin (set_turn ops) w
  /\ turning_speed lin (set_turn ops) w <= lin.
Proof.
  intros ops lin ang w w' H Hw. pose proof (history_agrees ops) as [A B C D]. rewrite H in A. destruct A as (A1 & A2 & A3 & A4).
  pose proof (base_history_ok ops) as [_ Ht _ _]. set (b := base_history ops) in *.
  assert (HL : 0 <= b_maxLin b) by lra.
  pose proof (limit_bounds b w HL Ht). pose proof (limit_bounds b w' HL Ht). pose proof (limit_mono b w w' HL Ht Hw).
  unfold speed_limit, turning_speed in *. rewrite A1, B in *. lra.
Qed.
Print Assumptions C08_slow_when_turning.

(** Commands within the limits are not altered. *)
Theorem C08_pass_through : forall ops lin ang raw, set_limits ops = Some (lin, ang) ->
  respects lin ang (set_turn ops) (set_back ops) (set_side ops) raw -> base_sat (base_history ops) raw = raw.
Proof.
  intros ops lin ang raw H (P & Q & S1). pose proof (history_agrees ops) as [A B C D]. rewrite H in A. destruct A as (A1 & A2 & A3 & A4).
  apply base_sat_id; unfold speed_limit, turning_speed in *; rewrite ?A1, ?A2, ?B, ?C, ?D.
  - apply Rabs_le; lra.
  - rewrite Ropp_mult_distr_l in Q. exact Q.
  - apply Rabs_le; lra.
Qed.
Print Assumptions C08_pass_through.

(** A command cut by saturation is moved to the nearest limit: each component is the closest admissible value. *)
Theorem C08_nearest : forall ops lin ang raw c, set_limits ops = Some (lin, ang) ->
  let out := base_sat (base_history ops) raw in
  respects lin ang (set_turn ops) (set_back ops) (set_side ops) c ->
  Rabs (c_ang out - c_ang raw) <= Rabs (c_ang c - c_ang raw)
  /\ Rabs (c_lat out - c_lat raw) <= Rabs (c_lat c - c_lat raw)
  /\ (c_ang c = c_ang out -> Rabs (c_fwd out - c_fwd raw) <= Rabs (c_fwd c - c_fwd raw)).
Proof.
  intros ops lin ang raw c H out (P & Q & S1). pose proof (history_agrees ops) as [A B C D]. rewrite H in A. destruct A as (A1 & A2 & A3 & A4).
  assert (K : forall x p n y, n <= y <= p -> 0 <= p -> Rabs (saturate3 x p n - x) <= Rabs (y - x)).
  { intros x p n y Hy Hp. unfold saturate3. rcases; cbn [orb]; unfold Rabs; repeat destruct (Rcase_abs _); lra. }
  pose proof (base_history_ok ops) as [_ Ht Hk Hd].
  subst out. unfold base_sat, saturate2. cbn [c_ang c_fwd c_lat].
  split; [apply K; lra|]. split.
  - apply K; rewrite A1, D in *; [lra|]. rewrite <- D in *. apply Rmult_le_pos; lra.
  - intros E. rewrite sqrt_sq_abs. rewrite E in Q. unfold base_sat, saturate2, turning_speed in Q. cbn [c_ang] in Q.
    rewrite A1, A2, B, C in *. set (w := saturate3 (c_ang raw) ang (- ang)) in *.
    apply K; [rewrite <- Ropp_mult_distr_l; exact Q|].
    assert (0 < / (1 + set_turn ops * Rabs w)) by (apply Rinv_0_lt_compat; pose proof (turn_pos _ w Ht); lra).
    apply Rmult_le_pos; lra.
Qed.
Print Assumptions C08_nearest.

Definition c08_ops : list baseop := [BTurn 2; BSat (-1) 3; BSat (1/2) 1; BBack (1/2); BSide (-4); BSat 1 (-2)].
Example c08_set : set_limits c08_ops = Some (1/2, 1) /\ set_turn c08_ops = 2 /\ set_back c08_ops = 1/2 /\ set_side c08_ops = 1.
Proof.
  unfold c08_ops, set_limits, set_turn, set_back, set_side, nonneg_arg. cbn [last_of].
  repeat (destruct (Rle_dec _ _); try lra). auto.
Qed.
(** Too fast in every direction: turning at 3 rad/s, 5 m/s backwards. *)
Example c08_cut : base_sat (base_history c08_ops) (MkCmd (-5) 3 2) = MkCmd (-(1/12)) 1 (1/2).
Proof.
  assert (E : base_history c08_ops = MkBase (1/2) 1 2 (1/2) 1).
  { unfold base_history, c08_ops, base_run, base_call, base_setTurn, base_setSat, base_setBack, base_setSide, base_new. cbn.
    rcases; cbn; try lra. reflexivity. }
  rewrite E. unfold base_sat. cbn [c_ang c_fwd c_lat b_maxLin b_maxAng b_turn b_back b_side].
  assert (W : saturate2 3 1 = 1) by (unfold saturate2, saturate3; rcases; cbn; lra).
  rewrite W, sqrt_sq_abs, Rabs_R1. unfold saturate2, saturate3. f_equal; rcases; cbn; lra.
Qed.

(** * C61 *)
(** The linear and lateral limits reported by getSaturationLimits are upper bounds of what is commanded. *)
Theorem C61_reported_linear_partial : forall ops lin ang raw, set_limits ops = Some (lin, ang) ->
  let '(f, l, _) := base_limits (base_history ops) in
  c_fwd (base_sat (base_history ops) raw) <= f /\ Rabs (c_lat (base_sat (base_history ops) raw)) <= l.
Proof.
  intros ops lin ang raw H. pose proof (history_agrees ops) as [A B C D]. rewrite H in A. destruct A as (A1 & A2 & A3 & A4).
  pose proof (C08_limits ops lin ang raw H) as (P & Q & S1).
  pose proof (C08_slow_when_turning ops lin ang (c_ang (base_sat (base_history ops) raw)) _ H (Rle_refl _)) as [_ K].
  unfold base_limits. rewrite A1, D. split; [lra|]. apply Rabs_le. lra.
Qed.
Print Assumptions C61_reported_linear_partial.

(** With a turning gain the reported angular limit is below what is commanded. *)
Theorem C61_reported_angular_refuted : exists ops raw lin ang, set_limits ops = Some (lin, ang) /\
  let '(_, _, w) := base_limits (base_history ops) in w < Rabs (c_ang (base_sat (base_history ops) raw)).
Proof.
  exists c08_ops, (MkCmd (-5) 3 2), (1/2), 1. split; [apply c08_set|]. rewrite c08_cut.
  unfold base_limits. pose proof (history_agrees c08_ops) as [A B C D]. destruct c08_set as (S1 & S2 & S3 & S4).
  rewrite S1 in A. destruct A as (A1 & A2 & A3 & A4). rewrite A2, B, S2. cbn [c_ang]. rewrite Rabs_R1. lra.
Qed.
Print Assumptions C61_reported_angular_refuted.

(** * C09 *)
Theorem C09_rollout : forall K (ctl : K -> R -> ustate -> option (K * cmd)) ops lin ang hs k t u k' t' u',
  set_limits ops = Some (lin, ang) -> Forall (fun h => 0 <= h) hs ->
  rollout K ctl (base_history ops) k t u hs = Some (k', t', u') ->
  t' - t = total hs
  /\ Rabs (u_angle u' - u_angle u) <= ang * (t' - t)
  /\ dist2d (u_pos u') (u_pos u) <= top_speed lin (set_back ops) (set_side ops) * (t' - t).
Proof.
  intros K ctl ops lin ang hs k t u k' t' u' H Hh E. pose proof (history_agrees ops) as [A B C D]. rewrite H in A. destruct A as (A1 & A2 & A3 & A4).
  pose proof (base_history_ok ops) as Hb. assert (Hs : sat_set (base_history ops)) by (split; lra).
  destruct (rollout_bounds K ctl _ hs k t u k' t' u' Hb Hs Hh E) as (P & Q & V).
  replace (t' - t) with (total hs) by lra. split; [lra|]. rewrite A2 in Q. split; [exact Q|].
  replace (top_speed lin (set_back ops) (set_side ops)) with (speed_bound (base_history ops)); [exact V|].
  unfold speed_bound, fwd_bound, top_speed. rewrite A1, C, D. f_equal. ring.
Qed.
Print Assumptions C09_rollout.

(** A controller that always asks for too much, from a pose not at the origin. *)
Definition c09_ctl (n : nat) (t : R) (u : ustate) : option (nat * cmd) := Some (S n, MkCmd 9 9 9).
Example c09_runs : exists n t u, rollout nat c09_ctl (base_history c08_ops) 0%nat 1 (MkU (V2 1 2) 0) [1/10; 0; 1/5] = Some (n, t, u)
  /\ n = 3%nat /\ u_angle u = 3/10.
Proof.
  unfold rollout, c09_ctl.
  assert (W : c_ang (base_sat (base_history c08_ops) (MkCmd 9 9 9)) = 1).
  { pose proof (history_agrees c08_ops) as [A B C D]. destruct c08_set as (S1 & S2 & S3 & S4). rewrite S1 in A. destruct A as (A1 & A2 & A3 & A4).
    unfold base_sat, saturate2, saturate3. cbn [c_ang]. rewrite A2. rcases; cbn; lra. }
  do 3 eexists. split; [reflexivity|]. split; [reflexivity|]. cbn [u_angle euler unicycle_dot]. rewrite W. lra.
Qed.

(** The saturations the planner installs (src/UnicyclePlanner.cpp:776-777). *)
Definition planner_lin (c : plcfg) : R := sqrt (pl_maxLen c ^ 2 - pl_nomWidth c ^ 2) / pl_minT c * pl_linFac c.
Definition planner_ang (c : plcfg) : R := pl_maxAngle c / pl_minT c * pl_angFac c.

(** They are always accepted, and during one step of minimum duration the unicycle turns by at most the maximum
    step angle. *)
Theorem C09_planner_step : forall K (ctl : K -> R -> ustate -> option (K * cmd)) c ops hs k t u k' t' u',
  consistent c -> 0 < pl_minT c -> Forall (fun h => 0 <= h) hs -> total hs <= pl_minT c ->
  rollout K ctl (base_history (ops ++ [BSat (planner_lin c) (planner_ang c)])) k t u hs = Some (k', t', u') ->
  snd (base_call (base_history ops) (BSat (planner_lin c) (planner_ang c))) = true
  /\ Rabs (u_angle u' - u_angle u) <= pl_maxAngle c.
Proof.
  intros K ctl c ops hs k t u k' t' u' Hc Hm Hh Ht E. destruct Hc.
  assert (L : 0 <= planner_lin c).
  { unfold planner_lin. apply Rmult_le_pos; [|lra]. apply Rmult_le_pos; [apply sqrt_pos|]. left; apply Rinv_0_lt_compat; auto. }
  assert (G : 0 <= pl_maxAngle c / pl_minT c). { apply Rmult_le_pos; [lra|]. left; apply Rinv_0_lt_compat; auto. }
  assert (A : 0 <= planner_ang c) by (apply Rmult_le_pos; lra).
  split. { cbn. unfold base_setSat. rewrite !rltb_f by lra. reflexivity. }
  pose proof (set_limits_last ops _ _ L A) as S1.
  destruct (C09_rollout K ctl _ _ _ hs k t u k' t' u' S1 Hh E) as (P & Q & _).
  eapply Rle_trans; [exact Q|]. rewrite P. unfold planner_ang.
  apply Rle_trans with (pl_maxAngle c / pl_minT c * 1 * pl_minT c).
  - assert (0 <= total hs). { clear - Hh. induction Hh; cbn; lra. }
    apply Rmult_le_compat; [exact A|lra| |lra]. apply Rmult_le_compat_l; lra.
  - right. field. lra.
Qed.
Print Assumptions C09_planner_step.

(** * C10 *)
(** Whatever was set before, while every sample time is before the last value given to
    setInactiveUntil the unicycle stays where it is. *)
Theorem C10_pause : forall ops d T hs t u, Forall (fun s => s < T) (samples t hs) ->
  exists d', rollout direct direct_ctl (base_history ops) (direct_setUntil T d) t u hs = Some (d', t + total hs, u).
Proof.
  intros ops d T hs t u H. destruct (direct_pause (base_history ops) hs (direct_setUntil T d) t u (base_history_ok ops)) as (d' & E & _).
  - exact H.
  - exists d'. exact E.
Qed.
Print Assumptions C10_pause.

(** From that time on the unicycle is driven by the requested command, saturated. *)
Theorem C10_drive : forall ops d T c hs t u, Forall (fun s => T <= s) (samples t hs) ->
  exists d', rollout direct direct_ctl (base_history ops) (direct_setCmd c (direct_setUntil T d)) t u hs
             = Some (d', t + total hs, fold_left (fun v h => euler v (base_sat (base_history ops) c) h) hs u).
Proof.
  intros ops d T c hs t u H. destruct (direct_drive (base_history ops) hs (direct_setCmd c (direct_setUntil T d)) t u) as (d' & E & _).
  - exact H.
  - exists d'. exact E.
Qed.
Print Assumptions C10_drive.

(** Mixed rollouts split at the release time: standing first, then driving. *)
Theorem C10_release : forall ops d T c hs1 hs2 t u,
  Forall (fun s => s < T) (samples t hs1) -> Forall (fun s => T <= s) (samples (t + total hs1) hs2) ->
  exists d', rollout direct direct_ctl (base_history ops) (direct_setCmd c (direct_setUntil T d)) t u (hs1 ++ hs2)
             = Some (d', t + total (hs1 ++ hs2), fold_left (fun v h => euler v (base_sat (base_history ops) c) h) hs2 u).
Proof.
  intros ops d T c hs1 hs2 t u H1 H2.
  destruct (direct_pause (base_history ops) hs1 (direct_setCmd c (direct_setUntil T d)) t u (base_history_ok ops) H1) as (d1 & E1 & F & G).
  cbn in F, G.
  destruct (direct_drive (base_history ops) hs2 d1 (t + total hs1) u) as (d2 & E2 & _); [rewrite F; exact H2|].
  exists d2. rewrite rollout_app, E1, E2, total_app, G, Rplus_assoc. reflexivity.
Qed.
Print Assumptions C10_release.

(** Released at 1 s; sampled at 0, 1/2 and 1 s. *)
Example c10_case : Forall (fun s => s < 1) (samples 0 [1/2; 1/2]) /\ Forall (fun s => 1 <= s) (samples (0 + total [1/2; 1/2]) [1/2]).
Proof. cbn. split; repeat (apply Forall_cons; [lra|]); apply Forall_nil. Qed.
(** The last sample moves the unicycle by half of the requested metre per second. *)
Example c10_moves : exists d' t', rollout direct direct_ctl base_new (direct_setCmd (MkCmd 1 0 0) (direct_setUntil 1 direct_new)) 0 (MkU (V2 0 0) 0) [1/2; 1/2; 1/2]
  = Some (d', t', MkU (V2 (1/2) 0) 0).
Proof.
  change base_new with (base_history []). change [1/2; 1/2; 1/2] with ([1/2; 1/2] ++ [1/2]).
  destruct (C10_release [] direct_new 1 (MkCmd 1 0 0) [1/2; 1/2] [1/2] 0 (MkU (V2 0 0) 0)) as (d' & E); try apply c10_case.
  exists d'. eexists. rewrite E. cbn [fold_left]. f_equal. f_equal.
  assert (W : base_sat (base_history []) (MkCmd 1 0 0) = MkCmd 1 0 0).
  { destruct (base_sat_unset (base_history []) (MkCmd 1 0 0)) as [A B]; [reflexivity|reflexivity|cbn; lra|cbn; lra|].
    assert (L : c_lat (base_sat (base_history []) (MkCmd 1 0 0)) = 0) by (unfold base_sat, saturate2, saturate3; cbn; rcases; cbn; lra).
    clear E. set (o := base_sat (base_history []) (MkCmd 1 0 0)) in *. clearbody o. destruct o; cbn in A, B, L; subst; reflexivity. }
  rewrite W. unfold euler, unicycle_dot. cbn. rewrite cos_0, sin_0. unfold vadd, vscale; cbn. f_equal; [f_equal|]; lra.
Qed.
