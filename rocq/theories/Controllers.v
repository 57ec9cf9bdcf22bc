(** Model of src/UnicycleBaseController.cpp, src/UnicycleDirectController.cpp and
    src/ControlledUnicycle.cpp. *)
From Coq Require Import Reals Lra List Bool.
From Verif Require Import Prelude UnicycleFoot.
Import ListNotations.
Open Scope R_scope.

(** src/UnicycleBaseController.cpp:29-36, members. *)
Record base : Type := MkBase { b_maxLin : R; b_maxAng : R; b_turn : R; b_back : R; b_side : R }.
Definition base_new : base := MkBase (-1) (-1) 0 1 1.

(** A command: forward speed, angular velocity, lateral velocity (controllerOutput 0, 1, 2). *)
Record cmd : Type := MkCmd { c_fwd : R; c_ang : R; c_lat : R }.

(** src/UnicycleBaseController.cpp:17-27. *)
Definition saturate3 (x pos neg : R) : R :=
  if Rltb pos 0 || Rgtb neg pos then x
  else if Rgtb x pos then pos
  else if Rltb x neg then neg
  else x.
(** src/UnicycleBaseController.cpp:12-15. *)
Definition saturate2 (x s : R) : R := saturate3 x s (- s).

(** src/UnicycleBaseController.cpp:38-55, doControl after doUnicycleControl returned [raw].
    [std::sqrt(w*w)] is kept as written. *)
Definition base_sat (b : base) (raw : cmd) : cmd :=
  let w := saturate2 (c_ang raw) (b_maxAng b) in
  let vs := b_maxLin b / (1 + b_turn b * sqrt (w * w)) in
  let f := saturate3 (c_fwd raw) vs (- b_back b * vs) in
  let l := saturate2 (c_lat raw) (b_side b * b_maxLin b) in
  MkCmd f w l.

(** src/UnicycleBaseController.cpp:74-118. *)
Definition base_setSat (lin ang : R) (b : base) : base * bool :=
  if Rltb lin 0 || Rltb ang 0 then (b, false)
  else (MkBase lin ang (b_turn b) (b_back b) (b_side b), true).
Definition base_setTurn (g : R) (b : base) : base * bool :=
  if Rltb g 0 then (b, false) else (MkBase (b_maxLin b) (b_maxAng b) g (b_back b) (b_side b), true).
Definition base_setBack (g : R) (b : base) : base * bool :=
  if Rltb g 0 then (b, false) else (MkBase (b_maxLin b) (b_maxAng b) (b_turn b) g (b_side b), true).
Definition base_setSide (g : R) (b : base) : base * bool :=
  if Rltb g 0 then (b, false) else (MkBase (b_maxLin b) (b_maxAng b) (b_turn b) (b_back b) g, true).

(** src/UnicycleBaseController.cpp:120-126, getSaturationLimits. *)
Definition base_limits (b : base) : R * R * R :=
  (b_maxLin b, b_maxLin b * b_side b, b_maxAng b / (1 + b_turn b)).

Inductive baseop : Type := BSat (lin ang : R) | BTurn (g : R) | BBack (g : R) | BSide (g : R).
Definition base_call (b : base) (o : baseop) : base * bool :=
  match o with
  | BSat l a => base_setSat l a b
  | BTurn g => base_setTurn g b
  | BBack g => base_setBack g b
  | BSide g => base_setSide g b
  end.
Definition base_run (b : base) (o : baseop) : base := fst (base_call b o).
Definition base_history (ops : list baseop) : base := fold_left base_run ops base_new.

(** src/ControlledUnicycle.cpp:49-57, state derivative (x, y, theta) for a command. *)
Definition unicycle_dot (u : ustate) (c : cmd) : vec2 * R :=
  (V2 (cos (u_angle u) * c_fwd c - sin (u_angle u) * c_lat c)
      (sin (u_angle u) * c_fwd c + cos (u_angle u) * c_lat c), c_ang c).

(** One forward Euler step of length [h] (iDynTree integrators::ForwardEuler, external, chosen in
    src/UnicyclePlanner.cpp:399): state + h * dynamics. *)
Definition euler (u : ustate) (c : cmd) (h : R) : ustate :=
  let '(v, w) := unicycle_dot u c in
  MkU (vadd (u_pos u) (vscale h v)) (u_angle u + h * w).

(** A rollout: at each step the controller sees time and state (ControlledUnicycle::dynamics,
    src/ControlledUnicycle.cpp:26-60) and returns a raw command, or fails.  [K] is the state of the
    controller. *)
Section Rollout.
Variable K : Type.
Variable ctl : K -> R -> ustate -> option (K * cmd).
Variable b : base.
Fixpoint rollout (k : K) (t : R) (u : ustate) (hs : list R) : option (K * R * ustate) :=
  match hs with
  | [] => Some (k, t, u)
  | h :: hs =>
      match ctl k t u with
      | None => None
      | Some (k', raw) => rollout k' (t + h) (euler u (base_sat b raw) h) hs
      end
  end.
End Rollout.

(** src/UnicycleDirectController.cpp:11-19, members. *)
Record direct : Type := MkDirect { d_cmd : cmd; d_time : R; d_until : R }.
Definition direct_new : direct := MkDirect (MkCmd 0 0 0) 0 0.
(** src/UnicycleDirectController.cpp:21-39. *)
Definition direct_raw (d : direct) : cmd :=
  if Rltb (d_time d) (d_until d) then MkCmd 0 0 0 else d_cmd d.
(** src/UnicycleDirectController.cpp:41-45. *)
Definition direct_feedback (t : R) (d : direct) : direct := MkDirect (d_cmd d) t (d_until d).
(** src/UnicycleDirectController.cpp:47-56. *)
Definition direct_setCmd (c : cmd) (d : direct) : direct := MkDirect c (d_time d) (d_until d).
Definition direct_setUntil (t : R) (d : direct) : direct := MkDirect (d_cmd d) (d_time d) t.
(** The controller as seen by ControlledUnicycle::dynamics. *)
Definition direct_ctl (d : direct) (t : R) (u : ustate) : option (direct * cmd) :=
  let d' := direct_feedback t d in Some (d', direct_raw d').
