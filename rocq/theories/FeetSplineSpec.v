(** Vocabulary for the cubic spline feet generator: the contract of the external splines. *)
From Coq Require Import Reals List.
From Verif Require Import Prelude FeetTraj CoMHeightSpec.
Open Scope R_scope.

(** The clamped cubic spline through ([0], [a]) and ([T], [b]), at rest at both ends. *)
Definition clamped2 (T a b : R) (f : R -> pva) : Prop :=
  exists c0 c1 c2 c3, (forall t, 0 <= t <= T -> f t = cubic c0 c1 c2 c3 t)
  /\ p_p (f 0) = a /\ p_v (f 0) = 0 /\ p_p (f T) = b /\ p_v (f T) = 0.
(** The clamped cubic spline through ([0], [a]), ([T1], [m]), ([T], [b]) with velocities [0] and [v] at the ends: two cubics that
    agree at the knot up to the second derivative. *)
Definition clamped3 (T1 T a m b v : R) (f : R -> pva) : Prop :=
  exists a0 a1 a2 a3 b0 b1 b2 b3,
  (forall t, 0 <= t <= T1 -> f t = cubic a0 a1 a2 a3 t)
  /\ (forall t, T1 <= t <= T -> f t = cubic b0 b1 b2 b3 (t - T1))
  /\ p_p (f 0) = a /\ p_v (f 0) = 0 /\ p_p (f T1) = m /\ p_p (f T) = b /\ p_v (f T) = v
  /\ cubic a0 a1 a2 a3 T1 = cubic b0 b1 b2 b3 0.
(** The two oracles are such splines. *)
Definition splines2 (spl2 : R -> R -> R -> R -> pva) : Prop := forall T a b, 0 < T -> clamped2 T a b (spl2 T a b).
Definition splines3 (spl3 : R -> R -> R -> R -> R -> R -> R -> pva) : Prop :=
  forall T1 T a m b v, 0 < T1 < T -> clamped3 T1 T a m b v (spl3 T1 T a m b v).

(** The smallest possible bound on the height reached by a swing whose apex lies at the share [a] of its duration, as a
    multiple of the step height, see the theorems. *)
Definition overshoot (a : R) : R := let b := Rmin a (1 - a) in 2 / (b * (3 - 2 * b) ^ 2).
