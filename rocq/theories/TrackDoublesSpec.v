(** What the user of the desired trajectory relies on, for doubles. *)
From Coq Require Import Reals ZArith List Bool Sorting.Sorted Sorting.Permutation.
From Flocq Require Import Core IEEE754.BinarySingleNaN.
From Verif Require Import Prelude UnicycleFoot PersonFollowing Doubles DoublesSpec TrackDoubles.
Import ListNotations.
Open Scope R_scope.

Notation point64 := (qpoint f64).
(** In order of time. *)
Definition ordered64 (l : list point64) : Prop := StronglySorted (fun p q => le64 (q_time p) (q_time q)) l.
(** What std::sort promises when the comparison is a strict weak order, that is without NaN. *)
Definition sorts64 (f : list point64 -> list point64) : Prop :=
  forall l, (forall p, In p l -> number (q_time p)) -> Permutation l (f l) /\ ordered64 (f l).
(** The times in a call are not NaN. *)
Definition timed (o : qop f64) : Prop := match o with QPoint p => number (q_time p) | QClear => True | QUpTo t => number t end.
(** [p] is the last point not later than [t], [n] the one after it. *)
Definition around (l : list point64) (t : f64) (p : point64) (n : option point64) : Prop :=
  exists l1 l2, l = l1 ++ p :: l2 /\ le64 (q_time p) t /\ List.Forall (fun q => lt64 t (q_time q)) l2 /\ n = hd_error l2.
(** Finite time; coordinates of a size that cannot overflow when two of them are added. *)
Definition sized (x : f64) : Prop := fin x = true /\ Rabs (f2r x) <= bpow radix2 1000.
Definition plain (p : point64) : Prop :=
  fin (q_time p) = true /\ sized (fst (q_y p)) /\ sized (snd (q_y p)) /\ sized (fst (q_yd p)) /\ sized (snd (q_yd p)).
(** The straight line from [a] at [tp] to [b] at [tn], in exact numbers. *)
Definition line64 (tp tn t a b : f64) : R := f2r a + (f2r t - f2r tp) / (f2r tn - f2r tp) * (f2r b - f2r a).
(** Within [k] units of rounding of the line. *)
Definition close64 (k : R) (x : f64) (v : R) (a b : f64) : Prop :=
  fin x = true /\ Rabs (f2r x - v) <= k * (bpow radix2 (-49) * (Rabs (f2r a) + Rabs (f2r b)) + bpow radix2 (-1070)).
Definition on_line64 (k : R) (t : f64) (p n : point64) (y : f64 * f64) (of : point64 -> f64 * f64) : Prop :=
  let l c := line64 (q_time p) (q_time n) t (c (of p)) (c (of n)) in
  close64 k (fst y) (l fst) (fst (of p)) (fst (of n)) /\ close64 k (snd y) (l snd) (snd (of p)) (snd (of n)).
(** Equal coordinates. *)
Definition same64 (x y : f64 * f64) : Prop := Beqb (fst x) (fst y) = true /\ Beqb (snd x) (snd y) = true.

(** The same points of the exact model. *)
Definition qp_of (p : tpoint) : qpoint R := MkQP (t_time p) (vx (t_y p), vy (t_y p)) (vx (t_yd p), vy (t_yd p)).
Definition qr_of (x : vec2 * vec2) : (R * R) * (R * R) := ((vx (fst x), vy (fst x)), (vx (snd x), vy (snd x))).
