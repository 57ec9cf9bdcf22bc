(** The controllers over a parameter arithmetic: the speed limits of src/UnicycleBaseController.cpp and all of
    src/UnicycleNavigationController.cpp.  Instances: exact reals and IEEE binary64. *)
From Coq Require Import Reals ZArith List Bool PeanoNat.
From Flocq Require Import Core IEEE754.BinarySingleNaN.
From Verif Require Import Prelude Doubles.
Import ListNotations.

(** Unary minus, std::sqrt, and the other functions of <cmath> the controllers call; [x_sqr] is [std::pow(x, 2)]. *)
Record maths (N : Type) : Type := MkMaths {
  x_opp : N -> N; x_sqrt : N -> N; x_sqr : N -> N; x_cos : N -> N; x_sin : N -> N; x_atan2 : N -> N -> N }.
Arguments x_opp {N}. Arguments x_sqrt {N}. Arguments x_sqr {N}. Arguments x_cos {N}. Arguments x_sin {N}. Arguments x_atan2 {N}.

(** Forward speed, angular velocity, lateral velocity. *)
Record dcmd (N : Type) : Type := MkDC { d_fwd : N; d_ang : N; d_lat : N }.
Arguments MkDC {N}. Arguments d_fwd {N}. Arguments d_ang {N}. Arguments d_lat {N}.
(** include/UnicycleState.h: position and angle. *)
Record dpose (N : Type) : Type := MkDP { d_x : N; d_y : N; d_th : N }.
Arguments MkDP {N}. Arguments d_x {N}. Arguments d_y {N}. Arguments d_th {N}.

(** Members of the navigation controller as in [Navigation.nav]; [None] is an uninitialised member. *)
Record dnav (N : Type) : Type := MkDN {
  dn_set : field -> N;
  dn_max : option (N * N * N);
  dn_des : dcmd N;
  dn_time : N; dn_dt : N; dn_until : N;
  dn_path : list (dpose N);
  dn_state : option (dpose N);
  dn_idx : nat;
  dn_eta : option N;
  dn_fresh : option bool }.
Arguments MkDN {N}. Arguments dn_set {N}. Arguments dn_max {N}. Arguments dn_des {N}. Arguments dn_time {N}. Arguments dn_dt {N}.
Arguments dn_until {N}. Arguments dn_path {N}. Arguments dn_state {N}. Arguments dn_idx {N}. Arguments dn_eta {N}. Arguments dn_fresh {N}.

(** Public calls of the navigation controller. *)
Inductive dop (N : Type) : Type :=
| DFeedback (t : N) (p : dpose N)
| DQuery
| DPath (p : list (dpose N))
| DSat (lin ang : N) | DTurn (g : N) | DBack (g : N) | DSide (g : N)
| DStep (d : N)
| DUntil (t : N)
| DConst (c : dcmd N).
Arguments DFeedback {N}. Arguments DQuery {N}. Arguments DPath {N}. Arguments DSat {N}. Arguments DTurn {N}. Arguments DBack {N}.
Arguments DSide {N}. Arguments DStep {N}. Arguments DUntil {N}. Arguments DConst {N}.
(** What the caller sees. *)
Inductive dout (N : Type) : Type := DDone (b : bool) | DCmd (c : dcmd N).
Arguments DDone {N}. Arguments DCmd {N}.

Section Ctrl.
Variable N : Type.
Variable A : arith N.
Variable M : maths N.

(** src/UnicycleBaseController.cpp:17-27. *)
Definition d_saturate3 (x pos neg : N) : N :=
  if a_lt A pos (c0 A) || a_lt A pos neg then x
  else if a_lt A pos x then pos
  else if a_lt A x neg then neg
  else x.
(** src/UnicycleBaseController.cpp:12-15. *)
Definition d_saturate2 (x s : N) : N := d_saturate3 x s (x_opp M s).
(** src/UnicycleBaseController.cpp:50, velocitySaturation. *)
Definition d_speed (S : field -> N) (w : N) : N :=
  a_div A (S q_satLin) (a_add A (c1 A) (a_mul A (S q_turn) (x_sqrt M (a_mul A w w)))).
(** src/UnicycleBaseController.cpp:49-52, doControl after doUnicycleControl returned [raw]. *)
Definition d_control (S : field -> N) (raw : dcmd N) : dcmd N :=
  let w := d_saturate2 (d_ang raw) (S q_satAng) in
  let vs := d_speed S w in
  MkDC (d_saturate3 (d_fwd raw) vs (a_mul A (x_opp M (S q_back)) vs)) w
       (d_saturate2 (d_lat raw) (a_mul A (S q_side) (S q_satLin))).

(** ** Navigation *)
Definition d_zero : dcmd N := MkDC (c0 A) (c0 A) (c0 A).
(** include/UnicycleNavigationController.h:18, m_zeroTolerance. *)
Definition d_tol : N := a_q A 1 1000000.
(** [2 * M_PI] *)
Definition d_2pi : N := a_mul A (a_q A 2 1) (a_pi A).
(** src/UnicycleNavigationController.cpp:12-21; m_dt = 0.01. *)
Definition d_new : dnav N := MkDN (initv A) None d_zero (c0 A) (a_q A 1 100) (c0 A) [] None 1 None None.
(** src/UnicycleNavigationController.cpp:48-60 and 124-131. *)
Definition d_wrap (a : N) : N :=
  if a_lt A (a_pi A) a then a_sub A a d_2pi else if a_lt A a (x_opp M (a_pi A)) then a_add A a d_2pi else a.
(** src/UnicycleNavigationController.cpp:43-62. *)
Definition d_feedback (t : N) (p : dpose N) (n : dnav N) : dnav N :=
  MkDN (dn_set n) (dn_max n) (dn_des n) t (dn_dt n) (dn_until n) (dn_path n) (Some (MkDP (d_x p) (d_y p) (d_wrap (d_th p)))) (dn_idx n) (dn_eta n) (dn_fresh n).
(** src/UnicycleNavigationController.cpp:99-120. *)
Definition d_linear (maxV maxL c s : N) : N :=
  if a_lt A (a_abs A c) d_tol then maxL
  else if a_lt A (a_abs A s) d_tol then maxV
  else let xs := a_div A maxV (a_abs A c) in
       let ys := a_div A maxL (a_abs A s) in
       if a_lt A xs ys then xs else ys.
(** src/UnicycleNavigationController.cpp:178-185. *)
Definition d_clip (v : N) : N := if a_lt A (a_abs A v) d_tol then c0 A else v.
(** src/UnicycleNavigationController.cpp:146-154: angleDirection, which stays uninitialised if [diff] is neither
    at least 0 nor below 0; reading it is undefined behaviour. *)
Definition d_direction (diff : N) : res N :=
  if a_le A (c0 A) diff then Ok (a_q A 1 1) else if a_lt A diff (c0 A) then Ok (a_q A (-1) 1) else UB.
(** src/UnicycleNavigationController.cpp:86-187: command and expected time towards pose [g]. *)
Definition d_towards (maxV maxL maxA : N) (s g : dpose N) : res (dcmd N * N) :=
  let dx := a_sub A (d_x g) (d_x s) in
  let dy := a_sub A (d_y g) (d_y s) in
  let distance := x_sqrt M (a_add A (x_sqr M dx) (x_sqr M dy)) in
  let slope := x_atan2 M dy dx in
  let c := x_cos M slope in
  let si := x_sin M slope in
  let speed := d_linear maxV maxL c si in
  let diff := d_wrap (a_sub A (d_th g) (d_th s)) in
  let linETA := a_div A distance speed in
  let angETA := a_div A (a_abs A diff) maxA in
  let eta := if a_lt A linETA angETA then angETA else linETA in
  do dir <- d_direction diff;
  let a := d_th s in
  let '(f, l) :=
    if a_lt A linETA angETA then (c0 A, c0 A)
    else let vx := a_mul A speed c in
         let vy := a_mul A speed si in
         (a_add A (a_mul A vx (x_cos M a)) (a_mul A vy (x_sin M a)),
          a_add A (a_mul A (x_opp M vx) (x_sin M a)) (a_mul A vy (x_cos M a))) in
  Ok (MkDC (d_clip f) (a_mul A dir maxA) (d_clip l), eta).

Definition d_plan (n : dnav N) : res (dnav N) :=
  match nth_error (dn_path n) (dn_idx n), dn_max n, dn_state n with
  | Some g, Some (v, l, a), Some s =>
      do x <- d_towards v l a s g;
      Ok (MkDN (dn_set n) (dn_max n) (fst x) (dn_time n) (dn_dt n) (dn_until n) (dn_path n) (dn_state n) (dn_idx n) (Some (snd x)) (dn_fresh n))
  | _, _, _ => UB
  end.
(** src/UnicycleNavigationController.cpp:64-188. *)
Definition d_compute (n : dnav N) : res (dnav N) :=
  match dn_fresh n with
  | None => UB
  | Some true => d_plan (MkDN (dn_set n) (dn_max n) (dn_des n) (dn_time n) (dn_dt n) (dn_until n) (dn_path n) (dn_state n) (dn_idx n) (dn_eta n) (Some false))
  | Some false =>
      match dn_eta n with
      | None => UB
      | Some eta =>
          if a_lt A eta (dn_dt n)
          then if Nat.eqb (S (dn_idx n)) (length (dn_path n))
               then Ok (MkDN (dn_set n) (dn_max n) d_zero (dn_time n) (dn_dt n) (dn_until n) (dn_path n) (dn_state n) (dn_idx n) (dn_eta n) (dn_fresh n))
               else d_plan (MkDN (dn_set n) (dn_max n) (dn_des n) (dn_time n) (dn_dt n) (dn_until n) (dn_path n) (dn_state n) (S (dn_idx n)) (dn_eta n) (dn_fresh n))
          else d_plan n
      end
  end.
(** src/UnicycleNavigationController.cpp:23-41, before saturation. *)
Definition d_query (n : dnav N) : res (dnav N * dcmd N) :=
  if a_lt A (dn_time n) (dn_until n) then Ok (n, d_zero) else do n' <- d_compute n; Ok (n', dn_des n').
(** src/UnicycleNavigationController.cpp:207-219. *)
Definition d_setPath (p : list (dpose N)) (n : dnav N) : dnav N * bool :=
  if Nat.ltb (length p) 2 then (n, false)
  else (MkDN (dn_set n) (dn_max n) (dn_des n) (dn_time n) (dn_dt n) (dn_until n) p (dn_state n) 1 (dn_eta n) (Some true), true).
(** src/UnicycleNavigationController.cpp:221-237. *)
Definition d_setMax (v l a : N) (n : dnav N) : dnav N * bool :=
  if a_lt A (a_abs A v) d_tol || a_lt A (a_abs A l) d_tol || a_lt A (a_abs A a) d_tol then (n, false)
  else (MkDN (dn_set n) (Some (a_abs A v, a_abs A l, a_abs A a)) (dn_des n) (dn_time n) (dn_dt n) (dn_until n) (dn_path n) (dn_state n) (dn_idx n) (dn_eta n) (dn_fresh n), true).
(** src/UnicycleNavigationController.cpp:239-253. *)
Definition d_setStep (d : N) (n : dnav N) : dnav N * bool :=
  if a_eq A d (c0 A) then (n, false)
  else (MkDN (dn_set n) (dn_max n) (dn_des n) (dn_time n) (a_abs A d) (dn_until n) (dn_path n) (dn_state n) (dn_idx n) (dn_eta n) (dn_fresh n), true).
Definition d_with_set (s : field -> N) (n : dnav N) : dnav N :=
  MkDN s (dn_max n) (dn_des n) (dn_time n) (dn_dt n) (dn_until n) (dn_path n) (dn_state n) (dn_idx n) (dn_eta n) (dn_fresh n).
(** src/UnicycleNavigationController.cpp:255-268 with getSaturationLimits, src/UnicycleBaseController.cpp:120-126. *)
Definition d_setSat (lin ang : N) (n : dnav N) : dnav N * bool :=
  let '(s, ok) := setv A (sSat lin ang) (dn_set n) in
  if ok then d_setMax (s q_satLin) (a_mul A (s q_satLin) (s q_side)) (a_div A (s q_satAng) (a_add A (c1 A) (s q_turn))) (d_with_set s n)
  else (n, false).
Definition d_setBase (c : setter N) (n : dnav N) : dnav N * bool :=
  let '(s, ok) := setv A c (dn_set n) in (d_with_set s n, ok).

Definition d_done (x : dnav N * bool) : res (dnav N * dout N) := Ok (fst x, DDone (snd x)).
(** src/UnicycleNavigationController.cpp:190-200 for [DConst] and [DUntil]. *)
Definition d_call (n : dnav N) (o : dop N) : res (dnav N * dout N) :=
  match o with
  | DFeedback t p => Ok (d_feedback t p n, DDone true)
  | DQuery => do x <- d_query n; Ok (fst x, DCmd (snd x))
  | DPath p => d_done (d_setPath p n)
  | DSat l a => d_done (d_setSat l a n)
  | DTurn g => d_done (d_setBase (sTurn g) n)
  | DBack g => d_done (d_setBase (sBack g) n)
  | DSide g => d_done (d_setBase (sSide g) n)
  | DStep d => d_done (d_setStep d n)
  | DUntil t => Ok (MkDN (dn_set n) (dn_max n) (dn_des n) (dn_time n) (dn_dt n) (a_abs A t) (dn_path n) (dn_state n) (dn_idx n) (dn_eta n) (dn_fresh n), DDone true)
  | DConst c => Ok (MkDN (dn_set n) (dn_max n) c (dn_time n) (dn_dt n) (dn_until n) (dn_path n) (dn_state n) (dn_idx n) (dn_eta n) (dn_fresh n), DDone true)
  end.
Fixpoint d_run (n : dnav N) (ops : list (dop N)) : res (dnav N * list (dout N)) :=
  match ops with
  | [] => Ok (n, [])
  | o :: r => do x <- d_call n o; do y <- d_run (fst x) r; Ok (fst y, snd x :: snd y)
  end.
End Ctrl.
Arguments d_saturate3 {N}. Arguments d_saturate2 {N}. Arguments d_speed {N}. Arguments d_control {N}. Arguments d_new {N}.
Arguments d_wrap {N}. Arguments d_feedback {N}. Arguments d_query {N}. Arguments d_call {N}. Arguments d_run {N}. Arguments d_compute {N}.
Arguments d_plan {N}. Arguments d_towards {N}. Arguments d_direction {N}. Arguments d_zero {N}. Arguments d_linear {N}. Arguments d_clip {N}.
Arguments d_setPath {N}. Arguments d_setMax {N}. Arguments d_setStep {N}. Arguments d_setSat {N}. Arguments d_setBase {N}. Arguments d_tol {N}. Arguments d_2pi {N}.

(** ** IEEE binary64.  Minus and square root are determined by IEEE 754; the other functions are not and stay parameters. *)
Definition fopp (x : f64) : f64 := @Bopp 53 1024 x.
Definition fsqrt (x : f64) : f64 := @Bsqrt 53 1024 prec64 emax64 mode_NE x.
Definition ieee_maths (sqr cos sin : f64 -> f64) (atan2 : f64 -> f64 -> f64) : maths f64 := MkMaths f64 fopp fsqrt sqr cos sin atan2.
