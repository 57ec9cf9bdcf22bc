(** What the user of the person following controller relies on, for doubles. *)
From Coq Require Import Reals ZArith List Bool.
From Flocq Require Import Core IEEE754.BinarySingleNaN.
From Verif Require Import Prelude UnicycleFoot Ellipse PersonFollowing Doubles DoublesSpec CtrlDoubles TrackDoubles UniDoublesSpec PersonDoubles.
Import ListNotations.
Open Scope R_scope.

(** Finite and at most [B] in size. *)
Definition held (B : R) (x : f64) : Prop := fin x = true /\ Rabs (f2r x) <= B.
Definition held2 (B : R) (y : f64 * f64) : Prop := held B (fst y) /\ held B (snd y).
(** The tracked point is between 2^-100 and [B] ahead of or behind the unicycle, at most [B] aside, and the gain is between 2^-100 and
    2^100. *)
Definition attached (B : R) (S : field -> f64) : Prop :=
  held B (S q_distX) /\ held B (S q_distY) /\ bpow radix2 (-100) <= Rabs (f2r (S q_distX)) /\ B <= bpow radix2 100
  /\ fin (S q_gain) = true /\ bpow radix2 (-100) <= f2r (S q_gain) <= bpow radix2 100.
(** std::tanh of a number that is not negative is between 0 and 1. *)
Definition good_tanh (th : f64 -> f64) : Prop := forall x, le64 fzero x -> fin (th x) = true /\ 0 <= f2r (th x) <= 1.
(** The ellipses answer desired points of size [B] with points of size [B] and a finite factor that is not negative. *)
Definition tame_cut (B : R) (E : cut f64) : Prop := forall y u, held2 B y ->
  held2 B (cut_outer E y u) /\ held2 B (cut_inner E y u) /\ fin (cut_bf E y u) = true /\ 0 <= f2r (cut_bf E y u).
(** A desired point of size [B] at a finite time, with a velocity of size [V]. *)
Definition held_point (B V : R) (p : qpoint f64) : Prop := fin (q_time p) = true /\ held2 B (q_y p) /\ held2 V (q_yd p).

(** The tracked point of a unicycle that moves along [px], [py], [th]. *)
Definition carried_x (S : field -> f64) (px th : R -> R) (t : R) : R := px t + (cos (th t) * f2r (S q_distX) - sin (th t) * f2r (S q_distY)).
Definition carried_y (S : field -> f64) (py th : R -> R) (t : R) : R := py t + (sin (th t) * f2r (S q_distX) + cos (th t) * f2r (S q_distY)).

(** The settings of the exact model. *)
Definition pf_field (k : pf) (q : field) : R := match q with q_gain => k_gain k | q_distX => vx (k_dist k) | q_distY => vy (k_dist k) | q_cons => k_cons k | _ => 0 end.
(** The ellipses of the exact model. *)
Definition vec_of (y : R * R) : vec2 := V2 (fst y) (snd y).
Definition of_vec (v : vec2) : R * R := (vx v, vy v).
Definition exact_cut (garbage : R) (k : pf) : cut R :=
  let pos u := V2 (d_x u) (d_y u) in
  let outer y u := if e_set (k_outer k) then ell_project (k_outer k) (vec_of y) (pos u) else vec_of y in
  MkCut (fun y _ => e_set (k_inner k) && ell_inside (k_inner k) (vec_of y)) (fun y u => of_vec (outer y u))
        (fun y u => of_vec (if e_set (k_inner k) then ell_project (k_inner k) (vec_of y) (pos u) else outer y u))
        (fun y u => pf_blend garbage k (pos u) (d_th u) (vec_of y)).
