(** Model of src/FeetCubicSplineGenerator.cpp.  The setters (lines 236-274) and their defaults (line 20) are those of
    FeetMinimumJerkGenerator.cpp and are modelled once, [feetcfg] and [feet_call] in FeetTraj.v; here the landing velocity is used. *)
From Coq Require Import Reals List Bool.
From Verif Require Import Prelude FootPrint GenPhases FeetTraj.
Import ListNotations.
Open Scope R_scope.

Section Spline.
(** iDynTree::CubicSpline (external), see FeetSplineSpec.v for its contract: [spl2 T a b t] is the value at [t] of the
    spline through ([0], [a]) and ([T], [b]) at rest at both ends; [spl3 T1 T a m b v t] that of the spline through
    ([0], [a]), ([T1], [m]) and ([T], [b]), at rest at [0] and with velocity [v] at [T]. *)
Variable spl2 : R -> R -> R -> R -> pva.
Variable spl3 : R -> R -> R -> R -> R -> R -> R -> pva.

(** src/FeetCubicSplineGenerator.cpp:84-190: the samples of a swing lasting [n] instants.  [setData] refuses coinciding
    times.  [zPositionsBuffer(0)] is never written by the code and is zero from the constructor of VectorDynSize (external).
    The final conditions of the pitch spline are never set (line 128 sets the initial ones again); zero is their default. *)
Definition swing_spline (c : feetcfg) (dT : R) (n : nat) (s0 s1 : step) : res (list sample) :=
  let T := INR n * dT in
  let T1 := f_apex c * T in
  if Reqb T 0 || Reqb T1 0 || Reqb T1 T then Fail
  else Ok (map (fun k =>
         let t := INR k * dT in
         MkSample (spl2 T (vx (st_pos s0)) (vx (st_pos s1)) t) (spl2 T (vy (st_pos s0)) (vy (st_pos s1)) t)
                  (spl3 T1 T 0 (f_height c) 0 (f_landing c) t) (spl3 T1 T 0 (f_pitch c) 0 0 t)
                  (spl2 T (st_angle s0) (st_angle s1) t)) (seq 0 n)).

(** src/FeetCubicSplineGenerator.cpp:49-206, interpolateFoot. *)
Definition spline_foot (c : feetcfg) (dT : R) (shift : list nat) (ph : list phase) (steps : list step) : res (list sample) :=
  if Rltb (f_height c) 0 then Fail
  else feet_loop (swing_spline c dT) ph (tl shift) 0 steps.
(** src/FeetCubicSplineGenerator.cpp:215-230. *)
Definition spline_compute (c : feetcfg) (dT : R) (left right : list step) (lph rph : list phase) (shift : list nat)
  : res (list sample * list sample) :=
  do a <- spline_foot c dT shift lph left;
  do b <- spline_foot c dT shift rph right;
  Ok (a, b).
End Spline.
