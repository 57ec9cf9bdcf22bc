(** The integrated unicycle over a parameter arithmetic: src/ControlledUnicycle.cpp with the saturated commands of CtrlDoubles.v, and the
    limits the planner installs. *)
From Coq Require Import Reals ZArith List Bool.
From Verif Require Import Prelude Doubles CtrlDoubles.
Import ListNotations.

Section Uni.
Variable N : Type.
Variable A : arith N.
Variable M : maths N.

(** src/ControlledUnicycle.cpp:52-58. *)
Definition u_dot (u : dpose N) (c : dcmd N) : N * N * N :=
  let ct := x_cos M (d_th u) in let st := x_sin M (d_th u) in
  (a_sub A (a_mul A ct (d_fwd c)) (a_mul A st (d_lat c)), a_add A (a_mul A st (d_fwd c)) (a_mul A ct (d_lat c)), d_ang c).
(** iDynTree integrators::ForwardEuler (external, chosen in src/UnicyclePlanner.cpp:399): state + h * dynamics. *)
Definition u_euler (u : dpose N) (c : dcmd N) (h : N) : dpose N :=
  let '(vx, vy, w) := u_dot u c in
  MkDP (a_add A (d_x u) (a_mul A h vx)) (a_add A (d_y u) (a_mul A h vy)) (a_add A (d_th u) (a_mul A h w)).
(** src/ControlledUnicycle.cpp:26-60 once per step; a step is the time the controller is told and its length (the times are those of
    the external integrator, arbitrary here); [K] is the state of the controller, which returns a raw command or fails. *)
Section Roll.
Variable K : Type.
Variable ctl : K -> N -> dpose N -> option (K * dcmd N).
Variable S : field -> N.
Fixpoint u_roll (k : K) (u : dpose N) (steps : list (N * N)) : option (K * dpose N) :=
  match steps with
  | [] => Some (k, u)
  | (t, h) :: r => match ctl k t u with
                   | None => None
                   | Some (k', raw) => u_roll k' (u_euler u (d_control A M S raw) h) r
                   end
  end.
End Roll.

(** src/UnicyclePlanner.cpp:776-777. *)
Definition u_lin (s : field -> N) : N :=
  a_mul A (a_div A (x_sqrt M (a_sub A (x_sqr M (s q_maxLen)) (x_sqr M (s q_nomWidth)))) (s q_minT)) (s q_linFac).
Definition u_ang (s : field -> N) : N := a_mul A (a_div A (s q_maxAngle) (s q_minT)) (s q_angFac).
(** src/UnicyclePlanner.cpp:755-767: settings with which computeNewSteps gives up before it installs the limits. *)
Definition u_refused (s : field -> N) : bool :=
  a_lt A (s q_maxLen) (s q_nomWidth) || a_lt A (s q_maxBack) (s q_nomWidth) || a_le A (s q_maxAngle) (s q_minAngle).
End Uni.
Arguments u_dot {N}. Arguments u_euler {N}. Arguments u_roll {N} A M {K}. Arguments u_lin {N}. Arguments u_ang {N}. Arguments u_refused {N}.
