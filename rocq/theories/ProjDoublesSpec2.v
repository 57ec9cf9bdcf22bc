(** Lines of the ellipse space of bounded slope, seen from a point inside. *)
From Coq Require Import Reals ZArith List Bool.
From Flocq Require Import Core IEEE754.BinarySingleNaN.
From Verif Require Import Prelude Doubles DoublesSpec CtrlDoubles StepDoubles EllDoubles ProjDoubles.
Open Scope R_scope.

(** Finite and at most [B]. *)
Definition within64 (B : R) (x : f64) : Prop := fin x = true /\ Rabs (f2r x) <= B.
(** The first point has coordinates of at most 3/2, the second of at most 2^400, and the computed difference in y is at most 2^k
    times the one in x. *)
Definition flat64 (k : Z) (p1 p2 : f64 * f64) : Prop :=
  within64 (3 / 2) (fst p1) /\ within64 (3 / 2) (snd p1) /\ within64 (bpow radix2 400) (fst p2) /\ within64 (bpow radix2 400) (snd p2)
  /\ Rabs (f2r (v_alpha ieee p1 p2)) <= bpow radix2 k * Rabs (f2r (v_beta ieee p1 p2)).
