(** Model of src/UnicycleOptimization.cpp. *)
From Coq Require Import Reals Lra List Bool.
From Verif Require Import Prelude Ellipse.
Open Scope R_scope.

(** src/UnicycleOptimization.cpp:11-21, the evaluated point ([m_stateBuffer], 8 entries). *)
Record cand : Type := MkCand {
  c_rPl : vec2;        (* 0,1: left foot seen from the right one *)
  c_dAngle : R;        (* 2 *)
  c_dTime : R;         (* 3 *)
  c_pos : vec2;        (* 4,5: new foot position *)
  c_rel : vec2         (* 6,7: new foot seen from the stance foot *)
}.

(** src/UnicycleOptimization.cpp:23-42 and constructors of the constraints (148-153, 175-180,
    202-207, 229-235, 258-263): a bound is [None] until set ([m_isUpperBounded]/[m_isLowerBounded] of
    the iDynTree base class are false by default). *)
Record problem : Type := MkProb {
  p_maxLen : option R;
  p_maxBack : option R;
  p_minWidth : option R;
  p_maxAngle : option R;
  p_ell : ell;
  p_posW : R;
  p_timeW : R
}.

Definition prob_new : problem := MkProb None None None None ell_clear 0 0.

(** src/UnicycleOptimization.cpp:44-56. *)
Definition prob_setMaxLen (v : R) (p : problem) : problem * bool :=
  if Rltb v 0 then (p, false)
  else (MkProb (Some v) (p_maxBack p) (p_minWidth p) (p_maxAngle p) (p_ell p) (p_posW p) (p_timeW p), true).
(** src/UnicycleOptimization.cpp:58-70. *)
Definition prob_setMaxBack (v : R) (p : problem) : problem * bool :=
  if Rltb v 0 then (p, false)
  else (MkProb (p_maxLen p) (Some v) (p_minWidth p) (p_maxAngle p) (p_ell p) (p_posW p) (p_timeW p), true).
(** src/UnicycleOptimization.cpp:72-84. *)
Definition prob_setMinWidth (v : R) (p : problem) : problem * bool :=
  if Rltb v 0 then (p, false)
  else (MkProb (p_maxLen p) (p_maxBack p) (Some v) (p_maxAngle p) (p_ell p) (p_posW p) (p_timeW p), true).
(** src/UnicycleOptimization.cpp:86-98. *)
Definition prob_setMaxAngle (v : R) (p : problem) : problem * bool :=
  if Rltb v 0 then (p, false)
  else (MkProb (p_maxLen p) (p_maxBack p) (p_minWidth p) (Some v) (p_ell p) (p_posW p) (p_timeW p), true).
(** src/UnicycleOptimization.cpp:100-103 and 237-241. *)
Definition prob_setEll (e : ell) (p : problem) : problem :=
  MkProb (p_maxLen p) (p_maxBack p) (p_minWidth p) (p_maxAngle p) e (p_posW p) (p_timeW p).
(** src/UnicycleOptimization.cpp:301-308. *)
Definition prob_setPosW (w : R) (p : problem) : problem * bool :=
  if Rltb w 0 then (p, false)
  else (MkProb (p_maxLen p) (p_maxBack p) (p_minWidth p) (p_maxAngle p) (p_ell p) w (p_timeW p), true).
(** src/UnicycleOptimization.cpp:310-317. *)
Definition prob_setTimeW (w : R) (p : problem) : problem * bool :=
  if Rltb w 0 then (p, false)
  else (MkProb (p_maxLen p) (p_maxBack p) (p_minWidth p) (p_maxAngle p) (p_ell p) (p_posW p) w, true).
(** src/UnicycleOptimization.cpp:105-108: [a && b] with short circuit. *)
Definition prob_setWeights (posW timeW : R) (p : problem) : problem * bool :=
  let '(p1, ok1) := prob_setPosW posW p in
  if ok1 then prob_setTimeW timeW p1 else (p1, false).

(** Strict upper/lower bound tests of lines 170, 197, 224, 281. *)
Definition ub_ok (b : option R) (v : R) : bool :=
  match b with None => true | Some m => Rltb v m end.
Definition lb_ok (b : option R) (v : R) : bool :=
  match b with None => true | Some m => Rgtb v m end.

(** src/UnicycleOptimization.cpp:155-173. *)
Definition maxLength_ok (p : problem) (c : cand) : bool :=
  ub_ok (p_maxLen p) (sqrt (vx (c_rPl c) * vx (c_rPl c) + vy (c_rPl c) * vy (c_rPl c))).
(** src/UnicycleOptimization.cpp:182-200. *)
Definition minWidth_ok (p : problem) (c : cand) : bool := lb_ok (p_minWidth p) (vy (c_rPl c)).
(** src/UnicycleOptimization.cpp:209-227. *)
Definition maxAngle_ok (p : problem) (c : cand) : bool := ub_ok (p_maxAngle p) (Rabs (c_dAngle c)).
(** src/UnicycleOptimization.cpp:229-256: value 1 inside, 0 outside, lower bound 0.5; feasibility is
    the iDynTree base class test [value >= lower bound]. *)
Definition inEllipse_ok (p : problem) (c : cand) : bool :=
  Rleb (1 / 2) (if ell_inside (p_ell p) (c_pos c) then 1 else 0).
(** src/UnicycleOptimization.cpp:265-284. *)
Definition maxBack_ok (p : problem) (c : cand) : bool :=
  ub_ok (p_maxBack p)
    (if Rltb (vx (c_rel c)) 0
     then sqrt (vx (c_rel c) * vx (c_rel c) + vy (c_rel c) * vy (c_rel c)) else 0).

(** src/UnicycleOptimization.cpp:122-127: all constraints of the optimal control problem hold. *)
Definition prob_feasible (p : problem) (c : cand) : bool :=
  maxLength_ok p c && minWidth_ok p c && maxAngle_ok p c && inEllipse_ok p c && maxBack_ok p c.

(** src/UnicycleOptimization.cpp:293-299 and 110-120 (Lagrange term with weight 1).
    The planner calls it with a positive time only (src/UnicyclePlanner.cpp:914). *)
Definition prob_cost (p : problem) (c : cand) : R :=
  p_timeW p * ((1 / c_dTime c) * (1 / c_dTime c))
  + p_posW p * (vx (c_rPl c) * vx (c_rPl c) + vy (c_rPl c) * vy (c_rPl c)).
