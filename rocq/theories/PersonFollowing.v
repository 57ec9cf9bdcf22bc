(** Model of src/PersonFollowingController.cpp. *)
From Coq Require Import Reals Lra List Bool.
From Verif Require Import Prelude UnicycleFoot Ellipse Controllers.
Import ListNotations.
Open Scope R_scope.

(** include/PersonFollowingController.h, TrajectoryPoint. *)
Record tpoint : Type := MkTP { t_time : R; t_y : vec2; t_yd : vec2 }.

(** Members of PersonFollowingController (constructor: lines 27-56).  [k_meas] is [m_y], [k_upos] and [k_theta] the fed
    back pose.  Members derived from these and only used as scratch (m_R, m_inverseB, m_personPosition,
    m_personDistanceNorm) are left out. *)
Record pf : Type := MkPf {
  k_traj : list tpoint; k_gain : R; k_dist : vec2;
  k_outer : ell; k_inner : ell; k_offMaj : R; k_offMin : R; k_cons : R;
  k_time : R; k_theta : R; k_upos : vec2; k_meas : vec2 }.
Definition pf_new : pf :=
  MkPf [MkTP 0 vzero vzero] 10 (V2 (2 / 10) 0) ell_clear ell_clear 0 0 2 0 0 vzero vzero.

Definition pf_with_traj (l : list tpoint) (k : pf) : pf :=
  MkPf l (k_gain k) (k_dist k) (k_outer k) (k_inner k) (k_offMaj k) (k_offMin k) (k_cons k) (k_time k) (k_theta k) (k_upos k) (k_meas k).
Definition pf_with_ell (o i : ell) (k : pf) : pf :=
  MkPf (k_traj k) (k_gain k) (k_dist k) o i (k_offMaj k) (k_offMin k) (k_cons k) (k_time k) (k_theta k) (k_upos k) (k_meas k).
Definition pf_with_off (a b : R) (k : pf) : pf :=
  MkPf (k_traj k) (k_gain k) (k_dist k) (k_outer k) (k_inner k) a b (k_cons k) (k_time k) (k_theta k) (k_upos k) (k_meas k).

(** Lines 118-131, getPersonPosition. *)
Definition pf_person (k : pf) (pos : vec2) (ang : R) : vec2 := vadd pos (rot ang (k_dist k)).

(** Lines 87-98, setUnicycleStateFeedback. *)
Definition pf_feedback (t : R) (pos : vec2) (ang : R) (k : pf) : pf :=
  MkPf (k_traj k) (k_gain k) (k_dist k) (k_outer k) (k_inner k) (k_offMaj k) (k_offMin k) (k_cons k) t ang pos (pf_person k pos ang).

(** Lines 100-111, setPersonDistance. *)
Definition pf_setDist (x y : R) (k : pf) : pf * bool :=
  if Reqb x 0 then (k, false)
  else (MkPf (k_traj k) (k_gain k) (V2 x y) (k_outer k) (k_inner k) (k_offMaj k) (k_offMin k) (k_cons k) (k_time k) (k_theta k) (k_upos k) (k_meas k), true).
(** Lines 133-141, setGain. *)
Definition pf_setGain (g : R) (k : pf) : pf * bool :=
  if Rleb g 0 then (k, false)
  else (MkPf (k_traj k) g (k_dist k) (k_outer k) (k_inner k) (k_offMaj k) (k_offMin k) (k_cons k) (k_time k) (k_theta k) (k_upos k) (k_meas k), true).

(** Lines 143-155, setDesiredPoint; [sortf] is std::sort, of which only "sorted rearrangement" is assumed. *)
Definition pf_setPoint (sortf : list tpoint -> list tpoint) (p : tpoint) (k : pf) : pf * bool :=
  if Rltb (t_time p) 0 then (k, false) else (pf_with_traj (sortf (k_traj k ++ [p])) k, true).

(** Lines 277-293: std::find_if over the reversed deque; the element before in reverse order is the next point. *)
Fixpoint find_rev (t : R) (next : option tpoint) (rl : list tpoint) : option (tpoint * option tpoint) :=
  match rl with
  | [] => None
  | p :: r => if Rleb (t_time p) t then Some (p, next) else find_rev t (Some p) r
  end.

(** Lines 15-25, interpolateReferences. *)
Definition interp (t : R) (p n : tpoint) : vec2 * vec2 :=
  let ratio := (t_time n - t) / (t_time n - t_time p) in
  (vadd (vscale ratio (t_y p)) (vscale (1 - ratio) (t_y n)),
   vadd (vscale ratio (t_yd p)) (vscale (1 - ratio) (t_yd n))).

(** Lines 263-300, getDesiredPoint ([None]: returned false). *)
Definition pf_desired (l : list tpoint) (t : R) : option (vec2 * vec2) :=
  if Rltb t 0 then None
  else match l with
       | [] => None
       | f :: _ =>
           if Rltb t (t_time f) then None
           else match find_rev t None (rev l) with
                | None => None
                | Some (p, None) => Some (t_y p, t_yd p)
                | Some (p, Some n) => Some (interp t p n)
                end
       end.

(** Lines 188-191: the popping loop. *)
Fixpoint drop_le (t : R) (l : list tpoint) : list tpoint :=
  match l with
  | [] => []
  | p :: r => if Rleb (t_time p) t then drop_le t r else l
  end.
(** Lines 173-201, clearDesiredTrajectoryUpTo.  After the last element is popped the loop compares an iterator that
    pop_front invalidated with end(); modelled as the intended comparison. *)
Definition pf_clearUpTo (t : R) (k : pf) : pf * bool :=
  if Rltb t 0 then (k, false)
  else match k_traj k with
       | [] => (k, true)
       | _ => match pf_desired (k_traj k) t with
              | None => (k, false)
              | Some (y, yd) => (pf_with_traj (MkTP t y yd :: drop_le t (k_traj k)) k, true)
              end
       end.
(** Lines 168-171, clearDesiredTrajectory. *)
Definition pf_clearTraj (k : pf) : pf := pf_with_traj [] k.

(** Lines 203-225, setFreeSpaceEllipse. *)
Definition pf_setEll (e : ell) (k : pf) : pf * bool :=
  let k1 := pf_with_ell e e k in
  if e_set e then
    let a := e_a e - k_offMaj k in
    let b := e_b e - k_offMin k in
    if Rleb a 0 || Rleb b 0 then (k1, false)
    else let '(i, ok) := ell_set5 a b (e_th e) (vx (e_d e)) (vy (e_d e)) e in
         (pf_with_ell e i k, ok)
  else (k1, true).
(** Lines 227-237, setFreeSpaceEllipseConservativeFactor. *)
Definition pf_setCons (c : R) (k : pf) : pf * bool :=
  if Rltb c 0 then (k, false)
  else (MkPf (k_traj k) (k_gain k) (k_dist k) (k_outer k) (k_inner k) (k_offMaj k) (k_offMin k) c (k_time k) (k_theta k) (k_upos k) (k_meas k), true).
(** Lines 244-261, setInnerFreeSpaceEllipseOffsets. *)
Definition pf_setOff (a b : R) (k : pf) : pf * bool :=
  if Rltb a 0 then (k, false) else if Rltb b 0 then (k, false)
  else let k1 := pf_with_off a b k in pf_setEll (k_outer k1) k1.

(** Lines 325-344: the blending factor before tanh.  [garbage] is the unwritten matrix entry in getTangentVector. *)
Definition em4 : R := / 10 ^ 4.
Definition pf_blend (garbage : R) (k : pf) (pos : vec2) (ang : R) (y : vec2) : R :=
  if e_set (k_inner k) then
    let person := pf_person k pos ang in
    match ell_closest (k_outer k) pos person with
    | None => 0
    | Some i =>
        let tan := ell_tangent garbage (k_outer k) i in
        let m := vsub y person in
        let n := vnorm m in
        if Rgtb n em4 then Rabs (vx m * vx tan + vy m * vy tan) / n else 0
    end
  else 0.

(** Lines 302-348, getDesiredPointInFreeSpaceEllipse. *)
Definition pf_desired_free (garbage : R) (k : pf) (t : R) (pos : vec2) (ang : R) : option (vec2 * vec2) :=
  match pf_desired (k_traj k) t with
  | None => None
  | Some (y, yd) =>
      if e_set (k_inner k) && ell_inside (k_inner k) y then Some (y, yd)
      else
        let fromOuter := if e_set (k_outer k) then ell_project (k_outer k) y pos else y in
        let fromInner := if e_set (k_inner k) then ell_project (k_inner k) y pos else fromOuter in
        let bl := tanh (k_cons k * pf_blend garbage k pos ang y) in
        Some (vadd (vscale bl fromInner) (vscale (1 - bl) fromOuter), yd)
  end.

(** Lines 58-85, doUnicycleControl. *)
Definition pf_raw (garbage : R) (k : pf) : option cmd :=
  let s := sin (k_theta k) in
  let c := cos (k_theta k) in
  let dx := vx (k_dist k) in
  let dy := vy (k_dist k) in
  match pf_desired_free garbage k (k_time k) (k_upos k) (k_theta k) with
  | None => None
  | Some (y, yd) =>
      let e := vsub yd (vscale (k_gain k) (vsub (k_meas k) y)) in
      Some (MkCmd ((- dy / dx * s + c) * vx e + (dy / dx * c + s) * vy e)
                  (- s / dx * vx e + c / dx * vy e) 0)
  end.

Inductive pfop : Type :=
| PfDist (x y : R) | PfGain (g : R) | PfPoint (p : tpoint) | PfClear | PfClearUpTo (t : R)
| PfEll (e : ell) | PfCons (c : R) | PfOff (a b : R) | PfFeed (t : R) (pos : vec2) (ang : R).
Definition pf_call (sortf : list tpoint -> list tpoint) (k : pf) (o : pfop) : pf * bool :=
  match o with
  | PfDist x y => pf_setDist x y k
  | PfGain g => pf_setGain g k
  | PfPoint p => pf_setPoint sortf p k
  | PfClear => (pf_clearTraj k, true)
  | PfClearUpTo t => pf_clearUpTo t k
  | PfEll e => pf_setEll e k
  | PfCons c => pf_setCons c k
  | PfOff a b => pf_setOff a b k
  | PfFeed t pos ang => (pf_feedback t pos ang k, true)
  end.
Definition pf_run (sortf : list tpoint -> list tpoint) (k : pf) (o : pfop) : pf := fst (pf_call sortf k o).
Definition pf_history (sortf : list tpoint -> list tpoint) (ops : list pfop) : pf := fold_left (pf_run sortf) ops pf_new.

(** The controller as seen by ControlledUnicycle::dynamics. *)
Definition pf_ctl (garbage : R) (k : pf) (t : R) (u : ustate) : option (pf * cmd) :=
  let k' := pf_feedback t (u_pos u) (u_angle u) k in
  match pf_raw garbage k' with None => None | Some c => Some (k', c) end.
