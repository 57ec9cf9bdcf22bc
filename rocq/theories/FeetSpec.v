(** Specification vocabulary for the feet trajectories. *)
From Coq Require Import Reals List Bool.
From Verif Require Import Prelude FootPrint GenPhases GenSpec FeetTraj.
Import ListNotations.
Open Scope R_scope.

(** The foot [b] stands on [s] at instant [i]: [s] is the step whose swing ended last, or the first one. *)
Definition stands_on (first : step) (pl : list tstep) (ph : phases) (b : bool) (i : nat) (s : step) : Prop :=
  (exists k t, nth_error pl k = Some t /\ t_left t = b /\ (bnd ph (2 * k + 2) <= i)%nat /\ t_step t = s
     /\ forall k' t', nth_error pl k' = Some t' -> t_left t' = b -> (bnd ph (2 * k' + 2) <= i)%nat -> (k' <= k)%nat)
  \/ (s = first /\ forall k' t', nth_error pl k' = Some t' -> t_left t' = b -> (i < bnd ph (2 * k' + 2))%nat).

(** Every phase lasts at least one instant. *)
Definition no_empty_phase (ph : phases) : Prop :=
  forall i a b, nth_error (ph_shift ph) i = Some a -> nth_error (ph_shift ph) (S i) = Some b -> (a < b)%nat.

(** A value between two others. *)
Definition between (a b x : R) : Prop := exists l, 0 <= l <= 1 /\ x = a + l * (b - a).

(** The sample is on the way from [s0] to [s1] with height at most [h]. *)
Record on_the_way (h : R) (s0 s1 : step) (x : sample) : Prop := {
  ow_line : exists l, 0 <= l <= 1 /\ p_p (s_x x) = vx (st_pos s0) + l * (vx (st_pos s1) - vx (st_pos s0))
            /\ p_p (s_y x) = vy (st_pos s0) + l * (vy (st_pos s1) - vy (st_pos s0))
            /\ p_p (s_yaw x) = st_angle s0 + l * (st_angle s1 - st_angle s0);
  ow_height : 0 <= p_p (s_z x) <= h }.

(** The first instant of a swing is at the step left behind, at rest. *)
Definition at_rest (s : step) (x : sample) : Prop :=
  p_p (s_x x) = vx (st_pos s) /\ p_p (s_y x) = vy (st_pos s) /\ p_p (s_yaw x) = st_angle s
  /\ p_v (s_x x) = 0 /\ p_v (s_y x) = 0 /\ p_v (s_yaw x) = 0.
