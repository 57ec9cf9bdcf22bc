(** The positions of the steps over a parameter arithmetic: src/UnicycleFoot.cpp, the constraints and the cost of
    src/UnicycleOptimization.cpp, the relative positions of src/UnicyclePlanner.cpp, and with them the answers that
    TimedPlan.v takes from an oracle.  The trajectory of the unicycle stays an arbitrary function of time.
    Eigen's products of a 2x2 matrix and a vector are sums of two products; sums are not fused with products. *)
From Coq Require Import Reals ZArith List Bool.
From Verif Require Import Prelude FootPrint Doubles CtrlDoubles TimedPlan.
Import ListNotations.

(** The inverse of the matrix of the ellipse, row by row, and its centre (include/FreeSpaceEllipse.h:17-24). *)
Record dell (N : Type) : Type := MkDE { z_00 : N; z_01 : N; z_10 : N; z_11 : N; z_d : N * N }.
Arguments MkDE {N}. Arguments z_00 {N}. Arguments z_01 {N}. Arguments z_10 {N}. Arguments z_11 {N}. Arguments z_d {N}.
(** As [problem] of Optimization.v; [k_free] is [None] if the ellipse is not set. *)
Record dprob (N : Type) : Type := MkDQ {
  k_len : option N; k_back : option N; k_width : option N; k_angle : option N; k_free : option (dell N); k_posW : N; k_timeW : N }.
Arguments MkDQ {N}. Arguments k_len {N}. Arguments k_back {N}. Arguments k_width {N}. Arguments k_angle {N}. Arguments k_free {N}.
Arguments k_posW {N}. Arguments k_timeW {N}.
(** As [cand] of Optimization.v. *)
Record dpoint (N : Type) : Type := MkDPt { y_rPl : N * N; y_ang : N; y_dt : N; y_pos : N * N; y_rel : N * N }.
Arguments MkDPt {N}. Arguments y_rPl {N}. Arguments y_ang {N}. Arguments y_dt {N}. Arguments y_pos {N}. Arguments y_rel {N}.

Section Steps.
Variable N : Type.
Variable A : arith N.
Variable M : maths N.

(** ** Vectors *)
Definition g_add (a b : N * N) : N * N := (a_add A (fst a) (fst b), a_add A (snd a) (snd b)).
Definition g_sub (a b : N * N) : N * N := (a_sub A (fst a) (fst b), a_sub A (snd a) (snd b)).
Definition g_at (p : dpose N) : N * N := (d_x p, d_y p).
(** src/UnicycleFoot.cpp:14-28, rotation by an angle. *)
Definition g_rot (th : N) (v : N * N) : N * N :=
  let c := x_cos M th in let s := x_sin M th in
  (a_add A (a_mul A c (fst v)) (a_mul A (x_opp M s) (snd v)), a_add A (a_mul A s (fst v)) (a_mul A c (snd v))).
(** src/UnicyclePlanner.cpp:228-237, the transposed rotation. *)
Definition g_rotT (th : N) (v : N * N) : N * N :=
  let c := x_cos M th in let s := x_sin M th in
  (a_add A (a_mul A c (fst v)) (a_mul A s (snd v)), a_add A (a_mul A (x_opp M s) (fst v)) (a_mul A c (snd v))).
(** [std::sqrt(std::pow(x, 2) + std::pow(y, 2))] *)
Definition g_norm (v : N * N) : N := x_sqrt M (a_add A (x_sqr M (fst v)) (x_sqr M (snd v))).

(** ** Constraints and cost *)
(** src/UnicycleOptimization.cpp:170, 224, 281 and 197. *)
Definition k_below (b : option N) (v : N) : bool := match b with None => true | Some m => a_lt A v m end.
Definition k_above (b : option N) (v : N) : bool := match b with None => true | Some m => a_lt A m v end.
(** src/FreeSpaceEllipse.cpp:38-46, 161-171. *)
Definition k_inside (e : option (dell N)) (p : N * N) : bool :=
  match e with
  | None => true
  | Some z => let v := g_sub p (z_d z) in
              let x := a_add A (a_mul A (z_00 z) (fst v)) (a_mul A (z_01 z) (snd v)) in
              let y := a_add A (a_mul A (z_10 z) (fst v)) (a_mul A (z_11 z) (snd v)) in
              a_le A (x_sqrt M (a_add A (a_mul A x x) (a_mul A y y))) (c1 A)
  end.
(** src/UnicycleOptimization.cpp:122-127 with 155-284. *)
Definition k_ok (p : dprob N) (y : dpoint N) : bool :=
  k_below (k_len p) (g_norm (y_rPl y)) && k_above (k_width p) (snd (y_rPl y)) && k_below (k_angle p) (a_abs A (y_ang y))
  && k_inside (k_free p) (y_pos y) && k_below (k_back p) (if a_lt A (fst (y_rel y)) (c0 A) then g_norm (y_rel y) else c0 A).
(** src/UnicycleOptimization.cpp:293-299. *)
Definition k_cost (p : dprob N) (y : dpoint N) : N :=
  a_add A (a_mul A (k_timeW p) (x_sqr M (a_div A (c1 A) (y_dt y))))
          (a_mul A (k_posW p) (a_add A (x_sqr M (fst (y_rPl y))) (x_sqr M (snd (y_rPl y))))).

(** ** Feet *)
Variable s : field -> N.
(** src/UnicyclePlanner.cpp:172-192: distance from the unicycle and yaw offset of the left ([true]) or right foot. *)
Definition g_dist (b : bool) : N * N := (c0 A, if b then a_div A (s q_nomWidth) (a_q A 2 1) else a_div A (x_opp M (s q_nomWidth)) (a_q A 2 1)).
Definition g_yaw (b : bool) : N := if b then s q_leftYaw else s q_rightYaw.
(** src/UnicycleFoot.cpp:180-193, getFootPositionFromUnicycle. *)
Definition g_pos (b : bool) (u : dpose N) : N * N := g_add (g_at u) (g_rot (d_th u) (g_dist b)).
(** src/UnicycleFoot.cpp:56-73, addStepFromUnicycle: the step. *)
Definition g_pose (b : bool) (u : dpose N) : dpose N :=
  let p := g_pos b u in MkDP (fst p) (snd p) (a_add A (d_th u) (g_yaw b)).
(** src/UnicycleFoot.cpp:175-178, getUnicycleAngleFromStep. *)
Definition g_heading (b : bool) (x : dpose N) : N := a_sub A (d_th x) (g_yaw b).
(** src/UnicycleFoot.cpp:75-103, addParallelStep: the step of foot [b] next to the step [x] of the other foot. *)
Definition g_next (b : bool) (x : dpose N) : dpose N :=
  let ua := g_heading (negb b) x in
  let p := g_add (g_at x) (g_rot ua (g_sub (g_dist b) (g_dist (negb b)))) in
  MkDP (fst p) (snd p) (a_add A ua (g_yaw b)).
(** src/UnicycleFoot.cpp:159-173, getUnicycleStateFromStep. *)
Definition g_state (b : bool) (x : dpose N) : dpose N :=
  let ua := g_heading b x in
  let p := g_sub (g_at x) (g_rot ua (g_dist b)) in
  MkDP (fst p) (snd p) ua.
(** src/UnicycleFoot.cpp:135-151, isTinyStep; the minimum length and angle are those of the planner. *)
Definition g_tiny (b : bool) (last : option (dpose N)) (u : dpose N) : bool :=
  match last with
  | None => false
  | Some x => a_lt A (g_norm (g_sub (g_pos b u) (g_at x))) (s q_minLen) && a_lt A (a_abs A (a_sub A (g_heading b x) (d_th u))) (s q_minAngle)
  end.

(** src/UnicyclePlanner.cpp:216-256, get_rPl for the last step [prev] of the stance foot. *)
Definition g_rPl (sw : bool) (prev u : dpose N) : N * N :=
  if sw then g_rotT (d_th prev) (g_sub (g_pos true u) (g_at prev)) else g_rotT (d_th u) (g_sub (g_at prev) (g_pos false u)).
(** src/UnicyclePlanner.cpp:258-288, get_newStepRelativePosition. *)
Definition g_rel (sw : bool) (prev u : dpose N) : N * N := g_rotT (d_th prev) (g_sub (g_pos sw u) (g_at prev)).
(** The point evaluated at src/UnicyclePlanner.cpp:901-914 and 325-343; [ang] is the angle between the headings. *)
Definition g_point (sw : bool) (prev u : dpose N) (ang dt : N) : dpoint N :=
  MkDPt (g_rPl sw prev u) ang dt (g_pos sw u) (g_rel sw prev u).

(** ** The planner *)
Variable prob : dprob N.
(** Trajectory, first pose, end time, and the answers that do not concern steps. *)
Variable sol : N -> dpose N.
Variable first : dpose N.
Variable tend : N.
Variables checks integ point : bool.
Variable lateral : option bool.

Definition g_last (l : tfoot N (dpose N)) : option (dpose N) := match last_opt l with Some x => Some (fst x) | None => None end.
(** The oracle of TimedPlan.v. *)
Definition step_geo : geo N (dpose N) := {|
  o_checks := checks; o_integ := integ; o_point := point; o_lateral := lateral;
  o_first := fun b => g_pose b first;
  o_tiny := fun sw l r t => g_tiny sw (g_last (if sw then l else r)) (sol t);
  o_cand := fun sw l r prev t dt =>
    match g_last (if sw then r else l) with
    | None => None
    | Some x => let y := g_point sw x (sol t) (a_abs A (a_sub A (g_heading (negb sw) (fst prev)) (d_th (sol t)))) dt in
                Some (if k_ok prob y then Some (k_cost prob y) else None)
    end;
  o_pose := fun b l r t => Some (g_pose b (sol t));
  o_still := fun sw l r prev => Some (g_tiny sw (g_last (if sw then l else r)) (g_state (negb sw) (fst prev)));
  o_par := fun sw l r => match g_last (if sw then r else l) with None => None | Some x => Some (g_next sw x) end;
  o_term := fun sw l r prev dt =>
    match g_last (if sw then r else l) with
    | None => None
    | Some x => let y := g_point sw x (sol tend) (a_abs A (a_sub A (d_th (sol tend)) (g_heading (negb sw) (fst prev)))) dt in
                Some (k_ok prob y && negb (g_tiny (negb sw) (g_last (if sw then r else l)) (sol tend))
                                  && negb (g_tiny sw (g_last (if sw then l else r)) (sol tend)))
    end;
  o_again := fun b p => p |}.
(** The bounds of the planner as constructed and set; the backward one only after setMaximumStepLength
    (src/UnicyclePlanner.cpp:412-415, 561-614). *)
Definition prob_of (back : bool) (free : option (dell N)) : dprob N :=
  MkDQ (Some (s q_maxLen)) (if back then Some (s q_maxBack) else None) (Some (s q_minWidth)) (Some (s q_maxAngle)) free (s q_posW) (s q_timeW).
End Steps.
Arguments g_add {N}. Arguments g_sub {N}. Arguments g_at {N}. Arguments g_rot {N}. Arguments g_rotT {N}. Arguments g_norm {N}.
Arguments k_below {N}. Arguments k_above {N}. Arguments k_inside {N}. Arguments k_ok {N}. Arguments k_cost {N}. Arguments g_dist {N}.
Arguments g_yaw {N}. Arguments g_pos {N}. Arguments g_pose {N}. Arguments g_heading {N}. Arguments g_next {N}. Arguments g_state {N}.
Arguments g_tiny {N}. Arguments g_rPl {N}. Arguments g_rel {N}. Arguments g_point {N}. Arguments g_last {N}. Arguments step_geo {N}.
Arguments prob_of {N}.
