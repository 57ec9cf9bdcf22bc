(** Specification vocabulary for ellipses, lines and tangents. *)
From Coq Require Import Reals.
From Verif Require Import Prelude.
Open Scope R_scope.

(** Coordinates of [p] along axes rotated by [th] and centred at [c]. *)
Definition axis_u (th : R) (c p : vec2) : R := (vx p - vx c) * cos th + (vy p - vy c) * sin th.
Definition axis_v (th : R) (c p : vec2) : R := - (vx p - vx c) * sin th + (vy p - vy c) * cos th.

(** The level function of the ellipse with semi-axes [a], [b]. *)
Definition level (a b th : R) (c p : vec2) : R := (axis_u th c p / a) ^ 2 + (axis_v th c p / b) ^ 2.

(** Points of the line through [p] and [q]. *)
Definition line_at (p q : vec2) (t : R) : vec2 := V2 (vx p + t * (vx q - vx p)) (vy p + t * (vy q - vy p)).
Definition on_line (p q r : vec2) : Prop := exists t, r = line_at p q t.

(** Differences in ellipse axes units that are not "nearly but not exactly" zero: [k] is the threshold. *)
Definition clearly (k x : R) : Prop := x = 0 \/ k <= Rabs x.
Definition off_band (k a b th : R) (p q : vec2) : Prop :=
  clearly k (axis_u th p q / a) /\ clearly k (axis_v th p q / b).

(** The curve bounding the ellipse. *)
Definition curve_x (a b th : R) (c : vec2) (phi : R) : R := vx c + a * cos phi * cos th - b * sin phi * sin th.
Definition curve_y (a b th : R) (c : vec2) (phi : R) : R := vy c + a * cos phi * sin th + b * sin phi * cos th.
