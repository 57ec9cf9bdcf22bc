(** Model of what the getters of the two feet generators return: transform, twist and acceleration in mixed representation,
    computed from position, pitch and yaw: src/FeetMinimumJerkGenerator.cpp:167-186, 225-247, 259-272 and
    src/FeetCubicSplineGenerator.cpp:160-200. *)
From Coq Require Import Reals List.
From Verif Require Import Prelude FeetTraj.
Open Scope R_scope.

Record vec3 : Type := V3 { c1 : R; c2 : R; c3 : R }.
Definition v3zero : vec3 := V3 0 0 0.
Definition v3plus (a b : vec3) : vec3 := V3 (c1 a + c1 b) (c2 a + c2 b) (c3 a + c3 b).
Definition dot3 (a b : vec3) : R := c1 a * c1 b + c2 a * c2 b + c3 a * c3 b.
(** Rows. *)
Record mat3 : Type := M3 { r1 : vec3; r2 : vec3; r3 : vec3 }.
Definition mv (m : mat3) (v : vec3) : vec3 := V3 (dot3 (r1 m) v) (dot3 (r2 m) v) (dot3 (r3 m) v).

(** iDynTree::Rotation::RPY (external). *)
Definition rpy (r p y : R) : mat3 :=
  M3 (V3 (cos y * cos p) (cos y * sin p * sin r - sin y * cos r) (cos y * sin p * cos r + sin y * sin r))
     (V3 (sin y * cos p) (sin y * sin p * sin r + cos y * cos r) (sin y * sin p * cos r - cos y * sin r))
     (V3 (- sin p) (cos p * sin r) (cos p * cos r)).
(** iDynTree::Rotation::RPYRightTrivializedDerivative (external). *)
Definition rpy_map (r p y : R) : mat3 :=
  M3 (V3 (cos p * cos y) (- sin y) 0) (V3 (cos p * sin y) (cos y) 0) (V3 (- sin p) 0 1).
(** iDynTree::Rotation::RPYRightTrivializedDerivativeRateOfChange (external). *)
Definition rpy_map_rate (r p y dr dp dy : R) : mat3 :=
  M3 (V3 (- sin p * cos y * dp - sin y * cos p * dy) (- cos y * dy) 0)
     (V3 (- sin p * sin y * dp + cos p * cos y * dy) (- sin y * dy) 0) (V3 (- cos p * dp) 0 0).

Record reported : Type := MkRep { rp_pos : vec3; rp_rot : mat3; rp_lin : vec3; rp_ang : vec3; rp_linacc : vec3; rp_angacc : vec3 }.
(** During swing; the roll and its rates stay zero from line 89-90 on. *)
Definition report (s : sample) : reported :=
  let p := p_p (s_pitch s) in let y := p_p (s_yaw s) in
  let d := V3 0 (p_v (s_pitch s)) (p_v (s_yaw s)) in
  let dd := V3 0 (p_a (s_pitch s)) (p_a (s_yaw s)) in
  MkRep (V3 (p_p (s_x s)) (p_p (s_y s)) (p_p (s_z s))) (rpy 0 p y)
        (V3 (p_v (s_x s)) (p_v (s_y s)) (p_v (s_z s))) (mv (rpy_map 0 p y) d)
        (V3 (p_a (s_x s)) (p_a (s_y s)) (p_a (s_z s)))
        (v3plus (mv (rpy_map_rate 0 p y (c1 d) (c2 d) (c3 d)) d) (mv (rpy_map 0 p y) dd)).
(** Otherwise twist and acceleration are set to zero, src/FeetMinimumJerkGenerator.cpp:259-272; the same as [report] of
    [rest_at], see Properties_FeetPose.v. *)
Definition report_rest (s : FootPrint.step) : reported :=
  MkRep (V3 (Prelude.vx (FootPrint.st_pos s)) (Prelude.vy (FootPrint.st_pos s)) 0) (rpy 0 0 (FootPrint.st_angle s)) v3zero v3zero v3zero v3zero.
