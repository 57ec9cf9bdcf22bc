(** Specification vocabulary for the DCM trajectories. *)
From Coq Require Import String Reals List Bool.
From Verif Require Import Prelude FootPrint GenPhases GenSpec ZMP ZMPSpec DCM.
Import ListNotations.
Open Scope R_scope.

(** The sub-trajectories cover [[a, b]] one after the other, without gap or overlap. *)
Fixpoint tiles (a b : R) (tr : list sub) : Prop :=
  match tr with
  | [] => a = b
  | s :: r => sub_t0 s = a /\ a <= sub_t1 s /\ tiles (sub_t1 s) b r
  end.

(** Two consecutive sub-trajectories agree in time, DCM position and DCM velocity where they meet. *)
Definition meets (s s' : sub) : Prop :=
  sub_t1 s = sub_t0 s' /\ exists p v, sub_pos s (sub_t1 s) = Some p /\ sub_vel s (sub_t1 s) = Some v
    /\ sub_pos s' (sub_t0 s') = Some p /\ sub_vel s' (sub_t0 s') = Some v.
Fixpoint chain (tr : list sub) : Prop :=
  match tr with
  | s :: r => match r with s' :: _ => meets s s' /\ chain r | [] => True end
  | [] => True
  end.

(** The sub-trajectories that last. *)
Definition lasting (tr : list sub) : list sub := filter (fun s => Rltb (sub_t0 s) (sub_t1 s)) tr.
(** The single supports, in the order of time. *)
Definition supports (tr : list sub) : list ssd := flat_map (fun s => match s with SubS s => [s] | _ => [] end) tr.

(** [V] is everywhere the derivative of the curve [X], and continuous. *)
Definition c1_curve (X V : R -> vec2) : Prop :=
  forall t, moves X t (V t) /\ continuity_pt (fun t => vx (V t)) t /\ continuity_pt (fun t => vy (V t)) t.

(** Offset of a foot. *)
Definition offset_of (c : dcfg) (b : bool) : vec2 := if b then dc_offL c else dc_offR c.
(** ZMP of a foot standing on a planned step. *)
Definition zmp_of_step (c : dcfg) (t : tstep) : vec2 := world_of (t_step t) (offset_of c (t_left t)).

(** The foot prints carry the names that the DCM generator knows. *)
Definition named_feet (left right : footprint) : Prop :=
  (forall s, In s (fp_steps left) -> st_name s = "left"%string) /\ (forall s, In s (fp_steps right) -> st_name s = "right"%string).

(** [P] is the middle of [A] and [B]. *)
Definition midway (A B P : vec2) : Prop := vx P = (vx A + vx B) / 2 /\ vy P = (vy A + vy B) / 2.

(** [X], [V] is the DCM and its velocity all along the sub-trajectories [tr]. *)
Definition drives (tr : list sub) (X V : R -> vec2) : Prop :=
  c1_curve X V /\ forall s t, In s tr -> sub_t0 s < sub_t1 s -> sub_t0 s <= t <= sub_t1 s ->
    sub_pos s t = Some (X t) /\ sub_vel s t = Some (V t).
