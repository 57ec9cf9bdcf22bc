(** Specification vocabulary for the times of the feet and of the height of the CoM in doubles. *)
From Coq Require Import String Reals ZArith List Bool Sorting.Sorted.
From Flocq Require Import Core IEEE754.BinarySingleNaN.
From Verif Require Import Prelude Rounding GenPhases Doubles DoublesGen DoublesSpec.
Import ListNotations.
Open Scope R_scope.

(** Every normalized time is a number between 0 and 1. *)
Definition unit_times (out : list (option (f64 * f64))) : Prop :=
  forall x z, In (Some (x, z)) out -> (le64 fzero x /\ le64 x f1) /\ (le64 fzero z /\ le64 z f1).
(** The samples that move are those of the pieces that begin in a [moving] phase. *)
Definition moves_in (moving : phase -> bool) (ph : list phase) (shift : list nat) (out : list (option (f64 * f64))) : Prop :=
  forall j a b k p s, nth_error shift j = Some a -> nth_error shift (S j) = Some b -> (a <= k < b)%nat ->
  nth_error ph a = Some p -> nth_error out k = Some s -> (s <> None <-> moving p = true).
Definition is_swing (p : phase) : bool := match p with Swing => true | _ => false end.
Definition is_single (p : phase) : bool := match p with Swing | Stance => true | _ => false end.
(** The number of swings of a foot. *)
Definition swings (ph : list phase) (shift : list nat) : nat :=
  length (filter (fun i => match nth_error ph i with Some Swing => true | _ => false end) (removelast shift)).
