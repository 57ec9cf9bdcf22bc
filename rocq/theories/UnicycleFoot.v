(** Model of src/UnicycleFoot.cpp. *)
From Coq Require Import Reals Lra List Bool String.
From Verif Require Import Prelude FootPrint.
Import ListNotations.
Open Scope R_scope.

(** include/UnicycleState.h: struct UnicycleState. *)
Record ustate : Type := MkU { u_pos : vec2; u_angle : R }.

(** src/UnicycleFoot.cpp:30-40, members of UnicycleFoot.  [m_steps_ptr] is modelled by the
    foot print it points to; [m_bufferR] is a scratch buffer and is dropped. *)
Record foot : Type := MkFoot {
  ft_fp : footprint;
  ft_distSet : bool;
  ft_dist : vec2;
  ft_yaw : R;
  ft_minStep : R;
  ft_minAngle : R
}.

(** src/UnicycleFoot.cpp:30-40, constructor. *)
Definition ft_new (fp : footprint) : foot := MkFoot fp false vzero 0 0 0.

(** src/UnicycleFoot.cpp:42-47. *)
Definition ft_setDistance (d : vec2) (f : foot) : foot :=
  MkFoot (ft_fp f) true d (ft_yaw f) (ft_minStep f) (ft_minAngle f).
(** src/UnicycleFoot.cpp:54-58. *)
Definition ft_setYaw (y : R) (f : foot) : foot :=
  MkFoot (ft_fp f) (ft_distSet f) (ft_dist f) y (ft_minStep f) (ft_minAngle f).
(** src/UnicycleFoot.cpp:116-124. *)
Definition ft_setTinyLength (l : R) (f : foot) : foot * bool :=
  if Rltb l 0 then (f, false)
  else (MkFoot (ft_fp f) (ft_distSet f) (ft_dist f) (ft_yaw f) l (ft_minAngle f), true).
(** src/UnicycleFoot.cpp:126-134. *)
Definition ft_setTinyAngle (a : R) (f : foot) : foot * bool :=
  if Rltb a 0 then (f, false)
  else (MkFoot (ft_fp f) (ft_distSet f) (ft_dist f) (ft_yaw f) (ft_minStep f) a, true).

(** Replace the pointed-to foot print (bookkeeping of the model, no C++ counterpart). *)
Definition ft_withFP (fp : footprint) (f : foot) : foot :=
  MkFoot fp (ft_distSet f) (ft_dist f) (ft_yaw f) (ft_minStep f) (ft_minAngle f).

(** src/UnicycleFoot.cpp:175-178, getUnicycleAngleFromStep. *)
Definition ft_angleFromStep (f : foot) (s : step) : R := st_angle s - ft_yaw f.

(** src/UnicycleFoot.cpp:111-114, getLastStep. *)
Definition ft_getLast (f : foot) : option step := fp_getLast (ft_fp f).

(** src/UnicycleFoot.cpp:154-157. *)
Definition ft_number (f : foot) : nat := fp_number (ft_fp f).

(** src/UnicycleFoot.cpp:65-81, addStepFromUnicycle. *)
Definition ft_addFromUnicycle (u : ustate) (t : R) (f : foot) : foot * bool :=
  if negb (ft_distSet f) then (f, false)
  else
    let pos := vadd (u_pos u) (rot (u_angle u) (ft_dist f)) in
    let '(fp', ok) := fp_addStep pos (u_angle u + ft_yaw f) t (ft_fp f) in
    (ft_withFP fp' f, ok).

(** src/UnicycleFoot.cpp:83-109, addParallelStep.  The tests on [numberOfSteps] and [getLastStep]
    coincide in the model. *)
Definition ft_addParallel (other : foot) (t : R) (f : foot) : foot * bool :=
  if Rltb t 0 then (f, false)
  else match ft_getLast other with
       | None => (f, false)
       | Some os =>
           let ua := ft_angleFromStep other os in
           let pos := vadd (st_pos os) (rot ua (vsub (ft_dist f) (ft_dist other))) in
           let '(fp', ok) := fp_addStep pos (ua + ft_yaw f) t (ft_fp f) in
           (ft_withFP fp' f, ok)
       end.

(** src/UnicycleFoot.cpp:136-152, isTinyStep.  [std::pow(x,2)] is [x*x]. *)
Definition ft_isTiny (u : ustate) (f : foot) : bool :=
  match ft_getLast f with
  | None => false
  | Some ps =>
      let np := vadd (u_pos u) (rot (u_angle u) (ft_dist f)) in
      let len := sqrt ((vx np - vx (st_pos ps)) * (vx np - vx (st_pos ps))
                       + (vy np - vy (st_pos ps)) * (vy np - vy (st_pos ps))) in
      let da := Rabs (ft_angleFromStep f ps - u_angle u) in
      Rltb len (ft_minStep f) && Rltb da (ft_minAngle f)
  end.

(** src/UnicycleFoot.cpp:159-173, getUnicycleStateFromStep. *)
Definition ft_stateFromStep (f : foot) (s : step) : option ustate :=
  if negb (ft_distSet f) then None
  else
    let a := ft_angleFromStep f s in
    Some (MkU (vsub (st_pos s) (rot a (ft_dist f))) a).

(** src/UnicycleFoot.cpp:180-193, getFootPositionFromUnicycle. *)
Definition ft_posFromUnicycle (f : foot) (u : ustate) : option vec2 :=
  if negb (ft_distSet f) then None
  else Some (vadd (u_pos u) (rot (u_angle u) (ft_dist f))).
