(** What a user relies on when a point is projected into the free space in doubles. *)
From Coq Require Import Reals ZArith List Bool.
From Flocq Require Import Core IEEE754.BinarySingleNaN.
From Verif Require Import Prelude Ellipse Doubles DoublesSpec CtrlDoubles StepDoubles StepDoublesSpec EllDoubles EllDoublesSpec ProjDoubles.
Open Scope R_scope.

(** A point of the ellipse space on the border up to rounding: the square of its distance from the centre is one up to [t]. *)
Definition on_border (t : R) (w : f64 * f64) : Prop :=
  fin (fst w) = true /\ fin (snd w) = true /\ Rabs (f2r (fst w) * f2r (fst w) + f2r (snd w) * f2r (snd w) - 1) <= t.
(** A line of the ellipse space the code takes for horizontal or vertical. *)
Definition along_axis (p1 p2 : f64 * f64) : Prop :=
  Bltb (Babs (v_alpha ieee p1 p2)) (v_tiny ieee) = true \/ Bltb (Babs (v_beta ieee p1 p2)) (v_tiny ieee) = true.

(** What the way back through the image matrix may add: 2^-46 of the larger semi-axis and the centre, over the smaller semi-axis. *)
Definition back64 (a b : f64) (d : f64 * f64) : R :=
  bpow radix2 (-46) * ((Rmax (f2r a) (f2r b) + Rabs (f2r (fst d)) + Rabs (f2r (snd d))) / Rmin (f2r a) (f2r b)).

(** The exact object in the terms of ProjDoubles.v. *)
Definition exact_space (e : ell) : option (free R) :=
  match exact_ell e with
  | None => None
  | Some z => Some (MkFree ((m00 (e_C e), m01 (e_C e)), (m10 (e_C e), m11 (e_C e))) z)
  end.
Definition exact_pair (p : vec2) : R * R := (vx p, vy p).
