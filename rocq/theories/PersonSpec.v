(** Specification vocabulary for the person-following controller. *)
From Coq Require Import Reals List Bool Permutation Sorted.
From Verif Require Import Prelude Ellipse EllipseSpec PersonFollowing ControlSpec.
Import ListNotations.
Open Scope R_scope.

Definition in_time_order (l : list tpoint) : Prop := StronglySorted (fun p q => t_time p <= t_time q) l.
(** What std::sort promises. *)
Definition sorting (f : list tpoint -> list tpoint) : Prop := forall l, Permutation l (f l) /\ in_time_order (f l).

(** Straight line from [p] to [q]: the fraction of the way gone at time [t]. *)
Definition fraction (t : R) (p n : tpoint) : R := (t - t_time p) / (t_time n - t_time p).

(** [p] and [n] are the neighbours of time [t]; [n = None] after the last point. *)
Definition neighbours (l : list tpoint) (t : R) (p : tpoint) (n : option tpoint) : Prop :=
  exists l1 l2, l = l1 ++ p :: l2 /\ t_time p <= t /\ Forall (fun q => t < t_time q) l2 /\ n = hd_error l2.

(** Points kept by a history of insertions. *)
Definition accepted_points (ps : list tpoint) : list tpoint := filter (fun p => if Rle_dec 0 (t_time p) then true else false) ps.

(** The ellipse last handed to the controller. *)
Definition last_ell (ops : list pfop) : ell := last_of (fun o => match o with PfEll e => Some e | _ => None end) ell_clear ops.

(** An ellipse built from semi-axes, or none. *)
Definition proper (e : ell) : Prop :=
  e_set e = false \/ exists a b th cx cy e0, ell_set5 a b th cx cy e0 = (e, true).
Definition proper_ops (ops : list pfop) : Prop := Forall (fun o => match o with PfEll e => proper e | _ => True end) ops.
