(** What a user relies on for the ellipse of the free space in doubles. *)
From Coq Require Import Reals ZArith List Bool.
From Flocq Require Import Core IEEE754.BinarySingleNaN.
From Verif Require Import Prelude Ellipse Doubles DoublesSpec CtrlDoubles StepDoubles StepDoublesSpec EllDoubles.
Import ListNotations.
Open Scope R_scope.

(** The value of the point [p] for the ellipse with semi-axes [a], [b], turned by [th], around [d]: at most one inside, one on the
    border. *)
Definition level64 (a b th : f64) (d p : f64 * f64) : R :=
  sqrt ((ahead th d p / f2r a) * (ahead th d p / f2r a) + (aside th d p / f2r b) * (aside th d p / f2r b)).
(** The width of the border in which rounding decides: 2^-46 of the distance from the centre over the smaller semi-axis. *)
Definition border64 (a b : f64) (d p : f64 * f64) : R := bpow radix2 (-46) * (apart d p / Rmin (f2r a) (f2r b)).
(** Semi-axes for which the analysis holds: accepted and at most 2^100. *)
Definition axis64 (a : f64) : Prop := fin a = true /\ Bltb a (a_q ieee 1 10000000000) = false /\ f2r a <= bpow radix2 100.
(** A coordinate of at most 2^200. *)
Definition coord64 (x : f64) : Prop := fin x = true /\ Rabs (f2r x) <= bpow radix2 200.

(** The last accepted call. *)
Fixpoint in_force (l : list (zcall f64)) : option (zcall f64) :=
  match l with
  | [] => None
  | k :: l => match in_force l with
              | Some x => Some x
              | None => match k with
                        | ZSet a b _ _ _ => if Bltb a (a_q ieee 1 10000000000) || Bltb b (a_q ieee 1 10000000000) then None else Some k
                        | ZClear => Some k
                        end
              end
  end.
(** The exact object in the terms of EllDoubles.v. *)
Definition exact_call (e : ell) (k : zcall R) : ell :=
  match k with ZSet a b th cx cy => fst (ell_set5 a b th cx cy e) | ZClear => ell_clear end.
