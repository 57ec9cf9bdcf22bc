(** Specification vocabulary for the controllers: what the setters mean and what a rollout may do. *)
From Coq Require Import Reals List Bool.
From Verif Require Import Prelude UnicycleFoot Controllers FootSpec.
Import ListNotations.
Open Scope R_scope.

(** The value of the last call in a history that the documentation accepts. *)
Fixpoint last_of {A B} (f : A -> option B) (d : B) (l : list A) : B :=
  match l with
  | [] => d
  | x :: r => last_of f (match f x with Some y => y | None => d end) r
  end.
Definition nonneg_arg (g : R) : option R := if Rle_dec 0 g then Some g else None.

(** What the user last configured. *)
Definition set_limits (ops : list baseop) : option (R * R) :=
  last_of (fun o => match o with
                    | BSat l a => match nonneg_arg l, nonneg_arg a with Some l, Some a => Some (Some (l, a)) | _, _ => None end
                    | _ => None end) None ops.
Definition set_turn (ops : list baseop) : R :=
  last_of (fun o => match o with BTurn g => nonneg_arg g | _ => None end) 0 ops.
Definition set_back (ops : list baseop) : R :=
  last_of (fun o => match o with BBack g => nonneg_arg g | _ => None end) 1 ops.
Definition set_side (ops : list baseop) : R :=
  last_of (fun o => match o with BSide g => nonneg_arg g | _ => None end) 1 ops.

(** Forward speed allowed while turning at rate [w]. *)
Definition turning_speed (lin turn w : R) : R := lin / (1 + turn * Rabs w).

(** The command is within the limits. *)
Definition respects (lin ang turn back side : R) (c : cmd) : Prop :=
  - ang <= c_ang c <= ang
  /\ - (back * turning_speed lin turn (c_ang c)) <= c_fwd c <= turning_speed lin turn (c_ang c)
  /\ - (side * lin) <= c_lat c <= side * lin.

(** Largest speed of a command within the limits. *)
Definition top_speed (lin back side : R) : R := sqrt ((Rmax 1 back * lin) ^ 2 + (side * lin) ^ 2).

Fixpoint total (hs : list R) : R := match hs with [] => 0 | h :: r => h + total r end.
(** The times at which the controller is sampled. *)
Fixpoint samples (t : R) (hs : list R) : list R := match hs with [] => [] | h :: r => t :: samples (t + h) r end.
