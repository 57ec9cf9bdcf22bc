(** C03-C06: feet, relative positions, step limits. *)
From Coq Require Import Reals Lra List String.
From Verif Require Import Prelude FootPrint UnicycleFoot Ellipse Optimization PlannerSearch FootSpec FootProofs.
Import ListNotations.
Open Scope R_scope.

(** C03: pose -> step -> pose. *)
Theorem C03_pose_step_pose : forall f f' u t, ft_addFromUnicycle u t f = (f', true) ->
  exists s, ft_getLast f' = Some s /\ ft_stateFromStep f' s = Some u /\ st_time s = t.
Proof. exact state_step_roundtrip. Qed.
Print Assumptions C03_pose_step_pose.

(** C03: step -> pose -> step. *)
Theorem C03_step_pose_step : forall f s u t f', ft_stateFromStep f s = Some u -> ft_addFromUnicycle u t f = (f', true) ->
  exists s', ft_getLast f' = Some s' /\ st_pos s' = st_pos s /\ st_angle s' = st_angle s /\ st_time s' = t
             /\ ft_posFromUnicycle f u = Some (st_pos s).
Proof. exact step_state_roundtrip. Qed.
Print Assumptions C03_step_pose_step.

Example C03_nonvacuous : forall u, exists f', ft_addFromUnicycle u 1 (ft_setYaw 3 (ft_setDistance (V2 0 7) (ft_new fp_new))) = (f', true).
Proof. intros u. apply addFrom_ok; [reflexivity|lra]. Qed.

(** C04: after a parallel step both feet give the same unicycle pose, at the distance of the offsets. *)
Theorem C04_parallel_step : forall o t f f' os, ft_addParallel o t f = (f', true) -> ft_distSet f = true -> ft_distSet o = true ->
  ft_getLast o = Some os ->
  exists s, ft_getLast f' = Some s /\ st_time s = t /\ ft_stateFromStep f' s = ft_stateFromStep o os
            /\ dist2d (st_pos s) (st_pos os) = dist2d (ft_dist f) (ft_dist o).
Proof. exact parallel_same_state. Qed.
Print Assumptions C04_parallel_step.

(** C04: the planner's offsets (0, w/2) and (0, -w/2) are the nominal width apart. *)
Theorem C04_nominal_width : forall w, 0 <= w -> dist2d (V2 0 (w / 2)) (V2 0 (- w / 2)) = w.
Proof. exact nominal_offsets_distance. Qed.
Print Assumptions C04_nominal_width.

Example C04_nonvacuous : exists o f f', ft_distSet o = true /\ ft_distSet f = true /\ ft_addParallel o 2 f = (f', true) /\ ft_getLast o <> None.
Proof.
  destruct (addFrom_ok (MkU (V2 1 2) 3) 1 (ft_setDistance (V2 0 (-1)) (ft_new fp_new))) as [o Ho]; [reflexivity|lra|].
  destruct (state_step_roundtrip _ _ _ _ Ho) as (s & Hs & _).
  destruct (addParallel_ok o 2 (ft_setDistance (V2 0 1) (ft_new fp_new)) s Hs) as [f' Hf]; [lra|].
  exists o, (ft_setDistance (V2 0 1) (ft_new fp_new)), f'.
  apply addFrom_inv in Ho. rewrite Hs. repeat split; try tauto; try congruence.
Qed.

(** C05: invariance under every rigid motion of the scene. *)
Theorem C05_relative_position_invariant : forall g sw l r u,
  get_rPl sw (mv_foot g l) (mv_foot g r) (mv_state g u) = get_rPl sw l r u.
Proof. exact rPl_invariant. Qed.
Print Assumptions C05_relative_position_invariant.

Theorem C05_backward_position_invariant : forall g sw l r u,
  get_rel sw (mv_foot g l) (mv_foot g r) (mv_state g u) = get_rel sw l r u.
Proof. exact rel_invariant. Qed.
Print Assumptions C05_backward_position_invariant.

Theorem C05_tiny_step_invariant : forall g f u, ft_isTiny (mv_state g u) (mv_foot g f) = ft_isTiny u f.
Proof. exact tiny_invariant. Qed.
Print Assumptions C05_tiny_step_invariant.

Theorem C05_turn_invariant : forall g f s u,
  ft_angleFromStep (mv_foot g f) (mv_step g s) - u_angle (mv_state g u) = ft_angleFromStep f s - u_angle u.
Proof. exact turn_invariant. Qed.
Print Assumptions C05_turn_invariant.

Theorem C05_feasibility_invariant : forall g p rPl da dt pos rel,
  prob_feasible (mv_prob g p) (cand_of rPl da dt (mv_pt g pos) rel) = prob_feasible p (cand_of rPl da dt pos rel).
Proof. exact feasible_invariant. Qed.
Print Assumptions C05_feasibility_invariant.

Theorem C05_cost_invariant : forall g p rPl da dt pos rel,
  prob_cost (mv_prob g p) (cand_of rPl da dt (mv_pt g pos) rel) = prob_cost p (cand_of rPl da dt pos rel).
Proof. exact cost_invariant. Qed.
Print Assumptions C05_cost_invariant.

(** C06: the planner's feasibility test is exactly the documented conjunction of limits. *)
Theorem C06_feasible_iff_admissible : forall p (sw : bool) l r u prev da dt rPl rel pos,
  (if sw then ft_getLast r else ft_getLast l) = Some prev ->
  get_rPl sw l r u = Some rPl -> get_rel sw l r u = Some rel ->
  ft_posFromUnicycle (if sw : bool then l else r) u = Some pos ->
  (prob_feasible p (cand_of rPl da dt pos rel) = true <-> admissible p sw prev pos (u_angle u) da).
Proof. exact feasible_admissible. Qed.
Print Assumptions C06_feasible_iff_admissible.

(** C06: after any history of setters each limit is the last accepted value, or absent. *)
Theorem C06_limits_are_last_accepted : forall ops,
  p_maxLen (fold_left prob_run ops prob_new) = latest selLen (rev ops)
  /\ p_maxBack (fold_left prob_run ops prob_new) = latest selBack (rev ops)
  /\ p_minWidth (fold_left prob_run ops prob_new) = latest selWidth (rev ops)
  /\ p_maxAngle (fold_left prob_run ops prob_new) = latest selAngle (rev ops).
Proof. exact prob_history_bounds. Qed.
Print Assumptions C06_limits_are_last_accepted.

Example C06_nonvacuous :
  let l := ft_setDistance (V2 0 1) (ft_new (MkFP [MkStep (V2 0 1) 0 0 "left"%string] "left")) in
  let r := ft_setDistance (V2 0 (-1)) (ft_new (MkFP [MkStep (V2 0 (-1)) 0 0 "right"%string] "right")) in
  let p := fold_left prob_run [PoLen 5; PoLen (-3); PoWidth (1/2); PoAngle 1; PoBack 4] prob_new in
  exists rPl rel pos, get_rPl true l r (MkU (V2 1 0) 0) = Some rPl /\ get_rel true l r (MkU (V2 1 0) 0) = Some rel
    /\ ft_posFromUnicycle l (MkU (V2 1 0) 0) = Some pos /\ p_maxLen p = Some 5.
Proof.
  cbv zeta. do 3 eexists. repeat split.
  destruct (prob_history_bounds [PoLen 5; PoLen (-3); PoWidth (1/2); PoAngle 1; PoBack 4]) as (-> & _).
  simpl. destruct (Rle_dec 0 (-3)); [lra|]. destruct (Rle_dec 0 5); [reflexivity|lra].
Qed.
