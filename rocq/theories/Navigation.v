(** Model of src/UnicycleNavigationController.cpp. *)
From Coq Require Import Reals Lra List Bool PeanoNat.
From Verif Require Import Prelude UnicycleFoot Ellipse Controllers.
Import ListNotations.
Open Scope R_scope.

(** include/UnicycleNavigationController.h:17-30 and src/UnicycleNavigationController.cpp:12-21.
    Members the constructor leaves uninitialised are options; reading [None] is undefined behaviour.
    [n_idx] is the C++ [int] m_poseIndex; paths longer than INT_MAX are not modelled. *)
Record nav : Type := MkNav {
  n_base : base;
  n_max : option (R * R * R);   (* m_maxVelocity, m_maxLateralVelocity, m_maxAngularVelocity *)
  n_des : cmd;                  (* m_desiredForwardSpeed, m_desiredAngularVelocity, m_desiredLateralVelocity *)
  n_time : R; n_dt : R; n_until : R;
  n_path : list ustate;
  n_state : option ustate;
  n_idx : nat;
  n_eta : option R;
  n_fresh : option bool }.      (* m_newPathReceived *)

Definition zero_cmd : cmd := MkCmd 0 0 0.
Definition tol : R := 1 / 1000000.
Definition nav_new : nav := MkNav base_new None zero_cmd 0 (1 / 100) 0 [] None 1 None None.

Definition nav_with_base b (n : nav) := MkNav b (n_max n) (n_des n) (n_time n) (n_dt n) (n_until n) (n_path n) (n_state n) (n_idx n) (n_eta n) (n_fresh n).
Definition nav_with_max m (n : nav) := MkNav (n_base n) m (n_des n) (n_time n) (n_dt n) (n_until n) (n_path n) (n_state n) (n_idx n) (n_eta n) (n_fresh n).
Definition nav_with_des c (n : nav) := MkNav (n_base n) (n_max n) c (n_time n) (n_dt n) (n_until n) (n_path n) (n_state n) (n_idx n) (n_eta n) (n_fresh n).
Definition nav_with_dt d (n : nav) := MkNav (n_base n) (n_max n) (n_des n) (n_time n) d (n_until n) (n_path n) (n_state n) (n_idx n) (n_eta n) (n_fresh n).
Definition nav_with_until d (n : nav) := MkNav (n_base n) (n_max n) (n_des n) (n_time n) (n_dt n) d (n_path n) (n_state n) (n_idx n) (n_eta n) (n_fresh n).
Definition nav_with_idx i (n : nav) := MkNav (n_base n) (n_max n) (n_des n) (n_time n) (n_dt n) (n_until n) (n_path n) (n_state n) i (n_eta n) (n_fresh n).
Definition nav_with_fresh f (n : nav) := MkNav (n_base n) (n_max n) (n_des n) (n_time n) (n_dt n) (n_until n) (n_path n) (n_state n) (n_idx n) (n_eta n) f.
Definition nav_with_plan c eta (n : nav) := MkNav (n_base n) (n_max n) c (n_time n) (n_dt n) (n_until n) (n_path n) (n_state n) (n_idx n) (Some eta) (n_fresh n).

(** src/UnicycleNavigationController.cpp:43-62. *)
Definition wrap_once (a : R) : R :=
  if Rgtb a PI then a - 2 * PI else if Rltb a (- PI) then a + 2 * PI else a.
Definition nav_feedback (t : R) (p : vec2) (a : R) (n : nav) : nav :=
  MkNav (n_base n) (n_max n) (n_des n) t (n_dt n) (n_until n) (n_path n) (Some (MkU p (wrap_once a))) (n_idx n) (n_eta n) (n_fresh n).

(** src/UnicycleNavigationController.cpp:86-120, direction and speed towards the next pose. *)
Definition slope (s g : ustate) : R := atan2 (vy (u_pos g) - vy (u_pos s)) (vx (u_pos g) - vx (u_pos s)).
Definition distance (s g : ustate) : R :=
  sqrt ((vx (u_pos g) - vx (u_pos s)) ^ 2 + (vy (u_pos g) - vy (u_pos s)) ^ 2).
Definition linear_speed (maxV maxL sl : R) : R :=
  let c := cos sl in
  let s := sin sl in
  if Rltb (Rabs c) tol then maxL
  else if Rltb (Rabs s) tol then maxV
  else let xs := maxV / Rabs c in
       let ys := maxL / Rabs s in
       if Rltb xs ys then xs else ys.

(** src/UnicycleNavigationController.cpp:178-185, clipping of small quantities. *)
Definition clip (v : R) : R := if Rltb (Rabs v) tol then 0 else v.

(** src/UnicycleNavigationController.cpp:86-187: command and expected time towards pose [g]. *)
Definition towards (maxV maxL maxA : R) (s g : ustate) : cmd * R :=
  let sl := slope s g in
  let speed := linear_speed maxV maxL sl in
  let diff := wrap_once (u_angle g - u_angle s) in
  let linETA := distance s g / speed in
  let angETA := Rabs diff / maxA in
  let eta := if Rgtb angETA linETA then angETA else linETA in
  let dir := if Rgeb diff 0 then 1 else -1 in
  let a := u_angle s in
  let '(f, l) :=
    if Rgtb angETA linETA then (0, 0)
    else (speed * cos sl * cos a + speed * sin sl * sin a,
          - (speed * cos sl) * sin a + speed * sin sl * cos a) in
  (MkCmd (clip f) (dir * maxA) (clip l), eta).

(** src/UnicycleNavigationController.cpp:86-187: plan towards the pose at the current index. *)
Definition nav_plan (n : nav) : res nav :=
  match nth_error (n_path n) (n_idx n), n_max n, n_state n with
  | Some g, Some (v, l, a), Some s => let '(c, eta) := towards v l a s g in Ok (nav_with_plan c eta n)
  | _, _, _ => UB
  end.

(** src/UnicycleNavigationController.cpp:64-188.  [m_poseIndex == size() - 1] is an unsigned
    comparison: it is false for the empty path. *)
Definition nav_compute (n : nav) : res nav :=
  match n_fresh n with
  | None => UB
  | Some true => nav_plan (nav_with_fresh (Some false) n)
  | Some false =>
      match n_eta n with
      | None => UB
      | Some eta =>
          if Rltb eta (n_dt n)
          then if Nat.eqb (S (n_idx n)) (length (n_path n))
               then Ok (nav_with_des zero_cmd n)
               else nav_plan (nav_with_idx (S (n_idx n)) n)
          else nav_plan n
      end
  end.

(** src/UnicycleNavigationController.cpp:23-41; the result is the command before saturation. *)
Definition nav_query (n : nav) : res (nav * cmd) :=
  if Rltb (n_time n) (n_until n) then Ok (n, zero_cmd)
  else do n' <- nav_compute n ; Ok (n', n_des n').

(** src/UnicycleNavigationController.cpp:197-200. *)
Definition nav_setUntil (t : R) (n : nav) : nav := nav_with_until (Rabs t) n.
(** src/UnicycleNavigationController.cpp:207-219. *)
Definition nav_setPath (p : list ustate) (n : nav) : nav * bool :=
  if Nat.ltb (length p) 2 then (n, false)
  else (MkNav (n_base n) (n_max n) (n_des n) (n_time n) (n_dt n) (n_until n) p (n_state n) 1 (n_eta n) (Some true), true).
(** src/UnicycleNavigationController.cpp:221-237. *)
Definition nav_setMax (v l a : R) (n : nav) : nav * bool :=
  if Rltb (Rabs v) tol || Rltb (Rabs l) tol || Rltb (Rabs a) tol then (n, false)
  else (nav_with_max (Some (Rabs v, Rabs l, Rabs a)) n, true).
(** src/UnicycleNavigationController.cpp:239-253. *)
Definition nav_setStep (d : R) (n : nav) : nav * bool :=
  if Reqb d 0 then (n, false) else (nav_with_dt (Rabs d) n, true).
(** src/UnicycleNavigationController.cpp:255-268. *)
Definition nav_setSat (lin ang : R) (n : nav) : nav * bool :=
  let '(b, ok) := base_setSat lin ang (n_base n) in
  if ok then let n' := nav_with_base b n in
             let '(f, l, a) := base_limits b in nav_setMax f l a n'
  else (n, false).
(** The setters inherited from the base controller. *)
Definition nav_setBase (o : baseop) (n : nav) : nav * bool :=
  match o with
  | BSat l a => nav_setSat l a n
  | _ => let '(b, ok) := base_call (n_base n) o in (nav_with_base b n, ok)
  end.

(** Public calls. *)
Inductive navop : Type :=
| NFeedback (t : R) (p : vec2) (a : R)
| NQuery
| NPath (p : list ustate)
| NBase (o : baseop)
| NStep (d : R)
| NUntil (t : R)
| NConst (c : cmd).
(** What the caller sees: a Boolean, or the command of a query. *)
Inductive navout : Type := ODone (b : bool) | OCmd (c : cmd).
Definition done (x : nav * bool) : res (nav * navout) := Ok (fst x, ODone (snd x)).
Definition nav_call (n : nav) (o : navop) : res (nav * navout) :=
  match o with
  | NFeedback t p a => Ok (nav_feedback t p a n, ODone true)
  | NQuery => do x <- nav_query n ; Ok (fst x, OCmd (snd x))
  | NPath p => done (nav_setPath p n)
  | NBase o => done (nav_setBase o n)
  | NStep d => done (nav_setStep d n)
  | NUntil t => Ok (nav_setUntil t n, ODone true)
  | NConst c => Ok (nav_with_des c n, ODone true)
  end.
(** A history of calls with everything returned, starting in [n]. *)
Fixpoint nav_run (n : nav) (ops : list navop) : res (nav * list navout) :=
  match ops with
  | [] => Ok (n, [])
  | o :: r => do x <- nav_call n o ; do y <- nav_run (fst x) r ; Ok (fst y, snd x :: snd y)
  end.
(** The controller as used by ControlledUnicycle::dynamics: feedback, then query. *)
Definition nav_ctl (n : nav) (t : R) (u : ustate) : res (nav * cmd) := nav_query (nav_feedback t (u_pos u) (u_angle u) n).
