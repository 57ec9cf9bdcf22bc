(** Vocabulary for the motion of a rigid body. *)
From Coq Require Import Reals.
From Verif Require Import Prelude FeetPose.
Open Scope R_scope.

(** Componentwise derivatives. *)
Definition derivative3 (f : R -> vec3) (t : R) (v : vec3) : Prop :=
  derivable_pt_lim (fun x => c1 (f x)) t (c1 v) /\ derivable_pt_lim (fun x => c2 (f x)) t (c2 v) /\ derivable_pt_lim (fun x => c3 (f x)) t (c3 v).
Definition column (j : nat) (m : mat3) : vec3 :=
  match j with
  | 0%nat => V3 (c1 (r1 m)) (c1 (r2 m)) (c1 (r3 m))
  | 1%nat => V3 (c2 (r1 m)) (c2 (r2 m)) (c2 (r3 m))
  | _ => V3 (c3 (r1 m)) (c3 (r2 m)) (c3 (r3 m))
  end.
Definition cross (a b : vec3) : vec3 := V3 (c2 a * c3 b - c3 a * c2 b) (c3 a * c1 b - c1 a * c3 b) (c1 a * c2 b - c2 a * c1 b).
(** Columns: orthonormal and right-handed. *)
Definition is_rotation (m : mat3) : Prop :=
  let a := column 0 m in let b := column 1 m in let c := column 2 m in
  dot3 a a = 1 /\ dot3 b b = 1 /\ dot3 a b = 0 /\ cross a b = c.

(** A moving body: origin, orientation (columns: axes of the body), velocity of the origin and angular velocity, all in
    world coordinates; each axis moves with velocity (angular velocity) x axis. *)
Record moving : Type := MkMotion { mo_p : R -> vec3; mo_R : R -> mat3; mo_v : R -> vec3; mo_w : R -> vec3 }.
Definition rigid (m : moving) : Prop := forall t,
  is_rotation (mo_R m t) /\ derivative3 (mo_p m) t (mo_v m t)
  /\ forall j, (j < 3)%nat -> derivative3 (fun x => column j (mo_R m x)) t (cross (mo_w m t) (column j (mo_R m t))).
(** The report describes the body at time [t]: its pose, velocities and accelerations. *)
Definition describes (m : moving) (t : R) (r : reported) : Prop :=
  rp_pos r = mo_p m t /\ rp_rot r = mo_R m t /\ rp_lin r = mo_v m t /\ rp_ang r = mo_w m t
  /\ derivative3 (mo_v m) t (rp_linacc r) /\ derivative3 (mo_w m) t (rp_angacc r).
