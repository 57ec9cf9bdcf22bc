(** What a user relies on when the unicycle is integrated in doubles. *)
From Coq Require Import Reals ZArith List Bool.
From Flocq Require Import Core IEEE754.BinarySingleNaN.
From Verif Require Import Prelude Controllers ControlSpec Doubles DoublesSpec CtrlDoubles CtrlDoublesSpec StepDoublesSpec.
Import ListNotations.
Open Scope R_scope.

Definition pose_fin (u : dpose f64) : Prop := fin (d_x u) = true /\ fin (d_y u) = true /\ fin (d_th u) = true.
(** Straight distance between two poses, in exact arithmetic. *)
Definition moved (a b : dpose f64) : R :=
  sqrt ((f2r (d_x b) - f2r (d_x a)) * (f2r (d_x b) - f2r (d_x a)) + (f2r (d_y b) - f2r (d_y a)) * (f2r (d_y b) - f2r (d_y a))).
(** Total length of the steps of an integration, in exact arithmetic. *)
Definition lasting (steps : list (f64 * f64)) : R := total (map (fun s => f2r (snd s)) steps).
Definition step_ok (s : f64 * f64) : Prop := fin (snd s) = true /\ 0 <= f2r (snd s).
(** Coordinates and angle are at most [W]. *)
Definition within (W : R) (u : dpose f64) : Prop := Rabs (f2r (d_x u)) <= W /\ Rabs (f2r (d_y u)) <= W /\ Rabs (f2r (d_th u)) <= W.
(** The controller answers a finite pose with numbers (infinities are allowed), or fails. *)
Definition answers (W : R) (K : Type) (ctl : K -> f64 -> dpose f64 -> option (K * dcmd f64)) : Prop :=
  forall k t u k' raw, pose_fin u -> within W u -> ctl k t u = Some (k', raw) -> numbers raw.
(** The unicycle moves in a world of size [W] at speeds and for a time that are not astronomical. *)
Record world (W V w T : R) (n : nat) (u : dpose f64) : Prop := MkWorld {
  w_size : 1 <= W <= bpow radix2 400;
  w_start : within (W / 2) u;
  w_long : T <= bpow radix2 400 /\ INR n <= bpow radix2 40;
  w_fast : V <= bpow radix2 400;
  w_reach : V * T <= W / 4 /\ w * T <= W / 4 }.
(** std::pow(x, 2) as the limits of the planner need it: close to the square, without overflow for usual arguments, and never falling. *)
Definition good_square (sqr : f64 -> f64) : Prop :=
  close_square sqr /\ (forall x y, le64 fzero x -> le64 x y -> le64 (sqr x) (sqr y))
  /\ (forall x, fin x = true -> Rabs (f2r x) <= bpow radix2 500 -> fin (sqr x) = true).
(** Settings of the planner of a usual size. *)
Record usual (s : field -> f64) : Prop := MkUsual {
  us_len : fin (s q_maxLen) = true /\ bpow radix2 (-100) <= f2r (s q_maxLen) <= bpow radix2 100;
  us_angle : fin (s q_maxAngle) = true /\ f2r (s q_maxAngle) <= bpow radix2 100;
  us_time : fin (s q_minT) = true /\ bpow radix2 (-100) <= f2r (s q_minT) <= bpow radix2 100 }.
(** Steps of the given lengths from time [t] on. *)
Fixpoint timed (t : R) (hs : list R) : list (R * R) := match hs with [] => [] | h :: r => (t, h) :: timed (t + h) r end.
