(** Specification vocabulary for the ZMP trajectories. *)
From Coq Require Import String Reals List Bool.
From Verif Require Import Prelude FootPrint GenPhases FeetTraj CoMHeightSpec ZMP.
Import ListNotations.
Open Scope R_scope.

(** Contract of iDynTree::CubicSpline with two points: one cubic on [[0, T]] with the given end positions and velocities
    (the final velocity is always 0 here; the library ignores the accelerations passed with the end conditions). *)
Definition hermite (T x0 v0 x1 : R) (f : R -> pva) : Prop :=
  exists c0 c1 c2 c3, (forall t, 0 <= t <= T -> f t = cubic c0 c1 c2 c3 t)
  /\ p_p (f 0) = x0 /\ p_v (f 0) = v0 /\ p_p (f T) = x1 /\ p_v (f T) = 0.
Definition spline_contract (spl : R -> R -> R -> R -> R -> R -> pva) : Prop :=
  forall T x0 v0 a0 x1, 0 < T -> hermite T x0 v0 x1 (spl T x0 v0 a0 x1).

(** [P] is on the segment between [A] and [B]. *)
Definition on_segment (A B P : vec2) : Prop := exists l, 0 <= l <= 1 /\ P = vadd (vscale l A) (vscale (1 - l) B).

(** [s] is the last of the steps of a foot with impact time not after [t]. *)
Definition latest (l : list step) (t : R) (s : step) : Prop :=
  In s l /\ st_time s <= t /\ forall s', In s' l -> st_time s' <= t -> st_time s' <= st_time s.

(** All the steps of a foot print carry its present name. *)
Definition named (fp : footprint) : Prop := forall s, In s (fp_steps fp) -> st_name s = fp_name fp.

(** A point of the foot frame, seen from the world when the foot is on [s]. *)
Definition world_of (s : step) (p : vec2) : vec2 :=
  V2 (vx (st_pos s) + (cos (st_angle s) * vx p - sin (st_angle s) * vy p))
     (vy (st_pos s) + (sin (st_angle s) * vx p + cos (st_angle s) * vy p)).

(** A direction of the foot frame, seen from the world when the foot is on [s]: turned, not displaced. *)
Definition turned (s : step) (p : vec2) : vec2 :=
  V2 (cos (st_angle s) * vx p - sin (st_angle s) * vy p) (sin (st_angle s) * vx p + cos (st_angle s) * vy p).
(** Velocity and acceleration of [a * P + b * Q] for feet at rest on [sL], [sR], by the product rule. *)
Definition zmp_velocity (sL sR : step) (a b : pva) (x y : pva2) : vec2 :=
  vadd (vadd (vscale (p_v a) (world_of sL (q_p x))) (vscale (p_p a) (turned sL (q_v x))))
       (vadd (vscale (p_v b) (world_of sR (q_p y))) (vscale (p_p b) (turned sR (q_v y)))).
Definition zmp_acceleration (sL sR : step) (a b : pva) (x y : pva2) : vec2 :=
  vadd (vadd (vadd (vscale (p_a a) (world_of sL (q_p x))) (vscale (2 * p_v a) (turned sL (q_v x)))) (vscale (p_p a) (turned sL (q_a x))))
       (vadd (vadd (vscale (p_a b) (world_of sR (q_p y))) (vscale (2 * p_v b) (turned sR (q_v y)))) (vscale (p_p b) (turned sR (q_a y)))).

(** Consecutive planned steps are made by different feet. *)
Definition alternating (pl : list tstep) : Prop :=
  forall k t t', nth_error pl k = Some t -> nth_error pl (S k) = Some t' -> t_left t <> t_left t'.

(** [V] is the derivative of the curve [X] at [t]. *)
Definition moves (X : R -> vec2) (t : R) (V : vec2) : Prop :=
  derivable_pt_lim (fun t => vx (X t)) t (vx V) /\ derivable_pt_lim (fun t => vy (X t)) t (vy V).
