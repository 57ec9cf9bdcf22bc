(** Specification vocabulary for the CoM height. *)
From Coq Require Import Reals List.
From Verif Require Import Prelude FeetTraj.
Import ListNotations.
Open Scope R_scope.

(** A cubic with its first and second derivative. *)
Definition cubic (c0 c1 c2 c3 t : R) : pva :=
  MkPva (c0 + c1 * t + c2 * t ^ 2 + c3 * t ^ 3) (c1 + 2 * c2 * t + 3 * c3 * t ^ 2) (2 * c2 + 6 * c3 * t).

(** Contract of iDynTree::CubicSpline: the clamped cubic spline through ([0], [a]), ([T/2], [m]), ([T], [a]), i.e. two
    cubics, twice continuously differentiable at the knot, with zero velocity at both ends. *)
Definition clamped (T a m : R) (f : R -> pva) : Prop :=
  exists a0 a1 a2 a3 b0 b1 b2 b3,
  (forall t, 0 <= t <= T / 2 -> f t = cubic a0 a1 a2 a3 t)
  /\ (forall t, T / 2 <= t <= T -> f t = cubic b0 b1 b2 b3 (t - T / 2))
  /\ p_p (f 0) = a /\ p_v (f 0) = 0 /\ p_p (f (T / 2)) = m /\ p_p (f T) = a /\ p_v (f T) = 0
  /\ cubic a0 a1 a2 a3 (T / 2) = cubic b0 b1 b2 b3 0.

(** [x] is between [a] and [b]. *)
Definition amid (a b x : R) : Prop := Rmin a b <= x <= Rmax a b.
