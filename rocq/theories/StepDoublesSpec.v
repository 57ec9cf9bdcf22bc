(** What a user relies on for the steps of a plan in doubles: they respect the limits up to rounding. *)
From Coq Require Import Reals ZArith List Bool.
From Flocq Require Import Core IEEE754.BinarySingleNaN.
From Verif Require Import Prelude FootPrint Doubles DoublesSpec CtrlDoubles TimedPlan StepDoubles.
Import ListNotations.
Open Scope R_scope.

(** The C library: std::cos and std::sin are within 2^-52 of the exact value, and NaN without a finite argument. *)
Definition close_trig (cosf sinf : f64 -> f64) : Prop := forall x,
  (fin x = true -> fin (cosf x) = true /\ fin (sinf x) = true /\
     Rabs (f2r (cosf x) - cos (f2r x)) <= bpow radix2 (-52) /\ Rabs (f2r (sinf x) - sin (f2r x)) <= bpow radix2 (-52))
  /\ (fin x = false -> fin (cosf x) = false /\ fin (sinf x) = false).
(** std::pow(x, 2): within a relative 2^-52 of the square and half the smallest double, or not finite. *)
Definition close_square (sqr : f64 -> f64) : Prop := forall x, fin (sqr x) = true ->
  fin x = true /\ Rabs (f2r (sqr x) - f2r x * f2r x) <= bpow radix2 (-52) * (f2r x * f2r x) + bpow radix2 (-1075).

(** Distance of two positions; how far [b] is ahead and to the left of [a], looking along [th]. *)
Definition apart (a b : f64 * f64) : R :=
  sqrt ((f2r (fst b) - f2r (fst a)) * (f2r (fst b) - f2r (fst a)) + (f2r (snd b) - f2r (snd a)) * (f2r (snd b) - f2r (snd a))).
Definition ahead (th : f64) (a b : f64 * f64) : R :=
  cos (f2r th) * (f2r (fst b) - f2r (fst a)) + sin (f2r th) * (f2r (snd b) - f2r (snd a)).
Definition aside (th : f64) (a b : f64 * f64) : R :=
  - sin (f2r th) * (f2r (fst b) - f2r (fst a)) + cos (f2r th) * (f2r (snd b) - f2r (snd a)).
Definition spot (x : dpose f64) : f64 * f64 := (d_x x, d_y x).
(** The slack: 2^-48 of the length and 2^-520. *)
Definition slack (l : R) : R := bpow radix2 (-48) * l + bpow radix2 (-520).

(** The step [x] of foot [sw] ([true] = left) on the unicycle at [u], after the step [prev] of the other foot with yaw offset
    [yaw], is finite and within the limits [len] (length), [back] (length backward, if set), [width], [angle]. *)
Record within_limits (len : f64) (back : option f64) (width angle yaw : f64) (sw : bool) (prev u x : dpose f64) : Prop := MkWithin {
  wl_finite : fin (d_x prev) = true /\ fin (d_y prev) = true /\ fin (d_th prev) = true /\
              fin (d_x x) = true /\ fin (d_y x) = true /\ fin (d_th u) = true;
  wl_length : apart (spot prev) (spot x) <= f2r len + slack (f2r len);
  wl_width : f2r width - slack (f2r len) <= (if sw then aside (d_th prev) (spot prev) (spot x) else aside (d_th u) (spot x) (spot prev));
  wl_angle : Rabs (f2r (d_th prev) - f2r yaw - f2r (d_th u)) <= f2r angle + bpow radix2 (-51) * f2r angle + bpow radix2 (-53) * Rabs (f2r (d_th prev) - f2r yaw);
  wl_back : forall b, back = Some b -> fin b = true -> f2r len <= bpow radix2 1000 -> ahead (d_th prev) (spot prev) (spot x) < - slack (f2r len) ->
            apart (spot prev) (spot x) <= f2r b + slack (f2r b) }.

(** ** Plans *)
(** The feet when the steps [new] are added in turns, the first one to foot [sw], each one [Q] for the swing foot, the feet and
    the last step [prev] of the other foot at that moment. *)
Fixpoint chained {X : Type} (Q : bool -> list X -> list X -> X -> X -> Prop) (sw : bool) (l r : list X) (prev : X) (new l' r' : list X) : Prop :=
  match new with
  | [] => l' = l /\ r' = r
  | x :: rest => Q sw l r prev x /\ chained Q (negb sw) (if sw then l ++ [x] else l) (if sw then r else r ++ [x]) x rest l' r'
  end.
(** The feet at the start of the search. *)
Definition begun {P : Type} (init : f64) (first : bool -> P) (left right l r : list (P * f64)) : Prop :=
  match left, right with
  | [], [] => l = [(first true, init)] /\ r = [(first false, init)]
  | _, _ => l = left /\ r = right
  end.
(** A step of the search: the swing foot on the trajectory at a time that was examined and accepted with some cost; its duration
    without pauses is positive and not above the maximum, and with pauses not below the minimum. *)
Definition sampled {P : Type} (c : tcfg f64) (o : geo f64 P) (sw : bool) (l r : list (P * f64)) (prev x : P * f64) : Prop :=
  exists dt pause cost, o_cand o sw l r prev (snd x) dt = Some (Some cost) /\ o_pose o sw l r (snd x) = Some (fst x)
    /\ dt = fsub (fsub (snd x) (snd prev)) pause /\ lt64 fzero dt /\ Bltb (c_max c) dt = false /\ le64 (c_min c) (fsub (snd x) (snd prev)).
(** A step next to the stance foot, where the swing foot does not stand yet. *)
Definition paralleled {P : Type} (c : tcfg f64) (o : geo f64 P) (sw : bool) (l r : list (P * f64)) (prev x : P * f64) : Prop :=
  o_par o sw l r = Some (fst x) /\ o_still o sw l r prev = Some false /\ le64 (c_min c) (fsub (snd x) (snd prev)).
(** The steps after the search, for the swing foot [sw]: none, one next to the stance foot, or both feet on the end of the
    trajectory if the first of the two is accepted. *)
Definition terminated {P : Type} (c : tcfg f64) (o : geo f64 P) (sw : bool) (l r : list (P * f64)) (prev : P * f64) (new l' r' : list (P * f64)) : Prop :=
  match new with
  | [] => l' = l /\ r' = r /\ (c_addTerm c = false \/ o_still o sw l r prev = Some true)
  | [x] => o_par o sw l r = Some (fst x) /\ o_still o sw l r prev = Some false /\ (if sw then l' = l ++ [x] /\ r' = r else l' = l /\ r' = r ++ [x])
  | [x; y] => o_term o sw l r prev (fsub (snd x) (snd prev)) = Some true /\ o_pose o sw l r (c_end c) = Some (fst x) /\
      let l1 := if sw then l ++ [x] else l in let r1 := if sw then r else r ++ [x] in
      o_pose o (negb sw) l1 r1 (c_end c) = Some (fst y) /\ (if sw then l' = l1 /\ r' = r1 ++ [y] else l' = l1 ++ [y] /\ r' = r1)
  | _ => False
  end.

(** The step [x] of foot [sw] is next to the step [prev] of the other foot: to its left or right by [w], up to rounding, looking
    along [prev] without the yaw offset [off], and turned by [yaw] from there. *)
Definition beside (w off yaw : f64) (sw : bool) (prev x : dpose f64) : Prop :=
  let th := fsub (d_th prev) off in
  let k := if sw then f2r w else - f2r w in
  let e v := bpow radix2 (-49) * Rabs (f2r w) + bpow radix2 (-52) * Rabs (f2r v) + bpow radix2 (-1070) in
  d_th x = fadd th yaw /\ (fin (d_x x) = true -> fin (d_y x) = true ->
   Rabs (f2r (d_x x) - (f2r (d_x prev) - sin (f2r th) * k)) <= e (d_x prev) /\ Rabs (f2r (d_y x) - (f2r (d_y prev) + cos (f2r th) * k)) <= e (d_y prev)).
(** A step of a plan in doubles with the settings [S] and the constraints [prob] on the trajectory [sol]. *)
Definition foot_yaw (S : field -> f64) (left : bool) : f64 := if left then S q_leftYaw else S q_rightYaw.
Definition limited (S : field -> f64) (back : option f64) (sw : bool) (prev u x : dpose f64) : Prop :=
  within_limits (S q_maxLen) back (S q_minWidth) (S q_maxAngle) (foot_yaw S (negb sw)) sw prev u x.
Definition next_to (S : field -> f64) (sw : bool) (prev x : dpose f64) : Prop :=
  beside (S q_nomWidth) (foot_yaw S (negb sw)) (foot_yaw S sw) sw prev x.
Definition searched (S : field -> f64) (back : option f64) (c : tcfg f64) (sol : f64 -> dpose f64) (sw : bool) (prev x : dpose f64 * f64) : Prop :=
  le64 (c_min c) (fsub (snd x) (snd prev)) /\ (limited S back sw (fst prev) (sol (snd x)) (fst x) \/ next_to S sw (fst prev) (fst x)).
(** The steps after the search. *)
Definition settled (S : field -> f64) (back : option f64) (c : tcfg f64) (sol : f64 -> dpose f64) (sw : bool) (l r : list (dpose f64 * f64)) (prev : dpose f64 * f64)
  (new l' r' : list (dpose f64 * f64)) : Prop :=
  match new with
  | [] => l' = l /\ r' = r
  | [x] => next_to S sw (fst prev) (fst x) /\ (if sw then l' = l ++ [x] /\ r' = r else l' = l /\ r' = r ++ [x])
  | [x; y] => limited S back sw (fst prev) (sol (c_end c)) (fst x) /\ (if sw then l' = l ++ [x] /\ r' = r ++ [y] else l' = l ++ [y] /\ r' = r ++ [x])
  | _ => False
  end.

(** ** The exact model *)
From Verif Require Import UnicycleFoot Ellipse Optimization PlannerSearch Planner TimedPlanSpec NavDoublesSpec.
(** Settings, constraints and trajectory of the exact planner in the terms of StepDoubles.v. *)
Definition exact_fields (c : plcfg) (q : field) : R :=
  match q with
  | q_nomWidth => pl_nomWidth c | q_leftYaw => pl_leftYaw c | q_rightYaw => pl_rightYaw c
  | q_minLen => pl_minLen c | q_minAngle => pl_minAngle c | _ => 0
  end.
Definition exact_ell (e : ell) : option (dell R) :=
  if e_set e then Some (MkDE (m00 (e_Ci e)) (m01 (e_Ci e)) (m10 (e_Ci e)) (m11 (e_Ci e)) (vx (e_d e), vy (e_d e))) else None.
Definition exact_prob (p : problem) : dprob R :=
  MkDQ (p_maxLen p) (p_maxBack p) (p_minWidth p) (p_maxAngle p) (exact_ell (p_ell p)) (p_posW p) (p_timeW p).
Definition exact_state (u : ustate) : dpose R := MkDP (vx (u_pos u)) (vy (u_pos u)) (u_angle u).
Definition exact_pose (p : pose) : dpose R := MkDP (vx (fst (fst p))) (vy (fst (fst p))) (snd (fst p)).
Definition exact_step (s : step) : dpose R * R := (MkDP (vx (st_pos s)) (vy (st_pos s)) (st_angle s), st_time s).
(** The unicycle at the first steps. *)
Definition exact_first (c : plcfg) (e : planenv) : ustate :=
  match pl_ctrl c with
  | CPerson => match v_point e with None => MkU vzero 0 | Some p => MkU (vsub p (v_person e)) 0 end
  | _ => MkU vzero 0
  end.
(** The planner of TimedPlan.v with the steps of StepDoubles.v, in exact arithmetic. *)
Definition exact_steps (c : plcfg) (e : planenv) (init tend : R) (lfp rfp : footprint) : geo R (dpose R) :=
  let g := exact_geo c e init tend lfp rfp in
  step_geo reals exact_maths (exact_fields c) (exact_prob (pl_prob c)) (fun t => exact_state (exact_sol c e init lfp rfp t))
    (exact_state (exact_first c e)) tend (o_checks g) (o_integ g) (o_point g) (o_lateral g).
