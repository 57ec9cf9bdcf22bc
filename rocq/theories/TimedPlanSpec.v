(** The exact planner as an instance of TimedPlan.v, and the vocabulary for plans in doubles. *)
From Coq Require Import String Reals ZArith List Bool.
From Flocq Require Import Core IEEE754.BinarySingleNaN.
From Verif Require Import Doubles DoublesGen DoublesSpec Prelude FootPrint UnicycleFoot Ellipse Optimization PlannerSearch Planner TimedPlan.
Import ListNotations.
Open Scope R_scope.

(** Position, angle and name of a step. *)
Definition pose : Type := (vec2 * R * string)%type.
Definition split_step (s : step) : pose * R := ((st_pos s, st_angle s, st_name s), st_time s).
Definition join_step (x : pose * R) : step := MkStep (fst (fst (fst x))) (snd (fst (fst x))) (snd x) (snd (fst x)).

Section Exact.
Variables (c : plcfg) (e : planenv) (init tend : R) (lfp rfp : footprint).

(** The settings of the exact model. *)
Definition exact_cfg : tcfg R :=
  MkTC (pl_minT c) (pl_maxT c) (pl_nomT c) (pl_dT c) init tend (pl_addTerm c) (pl_reset c) (pl_startLeft c).
(** A foot of the exact model with the given steps. *)
Definition foot_with (b : bool) (x : tfoot R pose) : foot :=
  pl_foot c b (MkFP (map join_step x) (fp_name (if b then lfp else rfp))).
(** Pose of foot [b] for the unicycle at [u]. *)
Definition pose_at (b : bool) (u : ustate) : pose :=
  let f := foot_with b [] in
  (vadd (u_pos u) (rot (u_angle u) (ft_dist f)), u_angle u + ft_yaw f, fp_name (if b then lfp else rfp)).
(** Initial pose and trajectory. *)
Definition exact_init : option planinit := init_state c e init (pl_foot c true lfp) (pl_foot c false rfp).
Definition exact_integ : option (R -> ustate) :=
  match exact_init with Some i => v_integ e (i_state i) | None => None end.
Definition exact_sol (t : R) : ustate := match exact_integ with Some s => s t | None => MkU vzero 0 end.

(** The point evaluated for a step of foot [sw] at the pose [u]: relative positions, angle, duration. *)
Definition exact_point (sw : bool) (l r : tfoot R pose) (u : ustate) (dAngle dt : R) : option cand :=
  match get_rPl sw (foot_with true l) (foot_with false r) u, get_rel sw (foot_with true l) (foot_with false r) u,
        ft_posFromUnicycle (foot_with sw (if sw then l else r)) u with
  | Some rPl, Some rel, Some pos => Some (cand_of rPl dAngle dt pos rel)
  | _, _, _ => None
  end.

(** The geometry of the exact model. *)
Definition exact_geo : geo R pose := {|
  o_checks := negb (Rgtb (pl_nomWidth c) (pl_maxLen c)) && negb (Rgtb (pl_nomWidth c) (pl_maxBack c))
              && negb (Rgeb (pl_minAngle c) (pl_maxAngle c)) && v_satOk e;
  o_integ := match exact_init with Some i => match v_integ e (i_state i) with Some _ => true | None => false end | None => true end;
  o_point := match pl_ctrl c with CPerson => match v_point e with None => false | Some _ => true end | _ => true end;
  o_first := fun b => pose_at b (match pl_ctrl c with
                                 | CPerson => match v_point e with None => MkU vzero 0 | Some p => MkU (vsub p (v_person e)) 0 end
                                 | _ => MkU vzero 0 end);
  o_lateral := match pl_ctrl c with
               | CPerson => None
               | _ => if Rgtb (Rabs (v_lateral e)) 0 then Some (Rgtb (v_lateral e) 0) else None
               end;
  o_tiny := fun sw l r t => ft_isTiny (exact_sol t) (foot_with sw (if sw then l else r));
  o_cand := fun sw l r prev t dt =>
    let u := exact_sol t in
    let dAngle := Rabs (ft_angleFromStep (foot_with (negb sw) (if sw then r else l)) (join_step prev) - u_angle u) in
    match exact_point sw l r u dAngle dt with
    | None => None
    | Some cd => Some (if prob_feasible (pl_prob c) cd then Some (prob_cost (pl_prob c) cd) else None)
    end;
  o_pose := fun b l r t => Some (pose_at b (exact_sol t));
  o_still := fun sw l r prev =>
    match ft_stateFromStep (foot_with (negb sw) (if sw then r else l)) (join_step prev) with
    | None => None
    | Some u => Some (ft_isTiny u (foot_with sw (if sw then l else r)))
    end;
  o_par := fun sw l r =>
    match last_opt (if sw then r else l) with
    | None => None
    | Some x =>
        let other := foot_with (negb sw) (if sw then r else l) in
        let f := foot_with sw (if sw then l else r) in
        let os := join_step x in
        let ua := ft_angleFromStep other os in
        Some (vadd (st_pos os) (rot ua (vsub (ft_dist f) (ft_dist other))), ua + ft_yaw f, fp_name (if sw then lfp else rfp))
    end;
  o_term := fun sw l r prev dTime =>
    let u := exact_sol tend in
    let stance := foot_with (negb sw) (if sw then r else l) in
    let swing := foot_with sw (if sw then l else r) in
    let dAngle := Rabs (u_angle u - ft_angleFromStep stance (join_step prev)) in
    match exact_point sw l r u dAngle dTime with
    | None => None
    | Some cd => Some (prob_feasible (pl_prob c) cd && negb (ft_isTiny u stance) && negb (ft_isTiny u swing))
    end;
  o_again := fun b p => (fst p, fp_name (if b then lfp else rfp))
|}.
End Exact.

(** ** Plans *)
(** Steps dealt to the feet in turns, the first one to foot [sw] ([true] = left): left, right. *)
Fixpoint dealt {X : Type} (sw : bool) (l : list X) : list X * list X :=
  match l with
  | [] => ([], [])
  | x :: r => let '(a, b) := dealt (negb sw) r in if sw then (x :: a, b) else (a, x :: b)
  end.
(** [Q a b] for consecutive times. *)
Fixpoint consecutive {X : Type} (Q : X -> X -> Prop) (a : X) (l : list X) : Prop :=
  match l with [] => True | b :: r => Q a b /\ consecutive Q b r end.

(** Times that addStep accepts. *)
Definition stored {P : Type} (l : list (P * f64)) : Prop := forall x, In x l -> Bltb (snd x) fzero = false.

(** Adding [dT] to a time between [lo] and [hi] gives a later time. *)
Definition advances (dT lo hi : f64) : Prop := forall t, fin t = true -> le64 lo t -> le64 t hi -> lt64 t (fadd t dT).
(** [dT] is at least the spacing of the doubles up to [B]. *)
Definition resolves (dT B : R) : Prop := 0 < dT /\ bpow radix2 (-52) * B <= dT.

(** What a plan is, for times compared as doubles.
    Steps [new] dealt to the feet [left], [right], the first one to foot [sw]. *)
Definition grown {P : Type} (left right : list (P * f64)) (sw : bool) (new left' right' : list (P * f64)) : Prop :=
  left' = left ++ fst (dealt sw new) /\ right' = right ++ snd (dealt sw new).
(** [y] may follow [x] in the search: later, within the horizon, not before the minimum duration. *)
Definition follows (c : tcfg f64) (x y : f64) : Prop :=
  lt64 x y /\ lt64 (c_init c) y /\ le64 y (c_end c) /\ le64 (c_min c) (fsub y x).
(** Times of the terminal steps after a step at [prev]: none, one, or two the nominal time apart, the first one the nominal
    time after the later of [prev] and the initial time. *)
Definition terminal_at (c : tcfg f64) (prev : f64) (l : list f64) : Prop :=
  let a := fadd (c_init c) (c_nom c) in let b := fadd prev (c_nom c) in let t := if Bltb a b then b else a in
  l = [] \/ l = [t] \/ l = [t; fadd t (c_nom c)].
(** Swing foot after [l] steps. *)
Fixpoint turn {X : Type} (sw : bool) (l : list X) : bool := match l with [] => sw | _ :: r => turn (negb sw) r end.
(** The feet the search starts with: the given ones, or one step each at the initial time. *)
Definition started {P : Type} (c : tcfg f64) (o : geo f64 P) (left right l r : list (P * f64)) : Prop :=
  match left, right with
  | [], [] => l = [(o_first o true, c_init c)] /\ r = [(o_first o false, c_init c)]
  | _, _ => l = left /\ r = right
  end.
(** Impact times are numbers not smaller than zero. *)
Definition times_ok {P : Type} (l : list (P * f64)) : Prop := forall x, In x l -> le64 fzero (snd x).
(** The result if no step was placed: the last step of the foot that stepped first is stored again at the time of the other. *)
Definition aligned {P : Type} (l r l' r' : list (P * f64)) : Prop :=
  length l' = length l /\ length r' = length r /\ removelast l' = removelast l /\ removelast r' = removelast r /\
  exists x y x' y', last_opt l = Some x /\ last_opt r = Some y /\ last_opt l' = Some x' /\ last_opt r' = Some y' /\
  snd x' = (if Bltb (snd x) (snd y) then snd y else snd x) /\ snd y' = (if Bltb (snd y) (snd x) then snd x else snd y).

(** The settings after calls of the setters, with the arguments of computeNewSteps. *)
Definition cfg64 (s : field -> f64) (init tend : f64) (addTerm reset startLeft : bool) : tcfg f64 :=
  MkTC (s q_minT) (s q_maxT) (s q_nomT) (s q_period) init tend addTerm reset startLeft.
(** Every call of the list returns true. *)
Fixpoint calls_accepted (s : field -> f64) (l : list (setter f64)) : bool :=
  match l with [] => true | c :: r => snd (setv ieee c s) && calls_accepted (fst (setv ieee c s)) r end.

(** The foot print named [n] with the planned times. *)
Definition nfoot_with {P : Type} (n : string) (l : list (P * f64)) : nfoot f64 := MkNF (map (fun x => (snd x, n)) l) n.
(** Foot prints before the first plan: empty, or with one step each. *)
Definition fresh64 {P : Type} (l r : list (P * f64)) : Prop := (l = [] /\ r = []) \/ (exists a b, l = [a] /\ r = [b]).
(** A foot has landed at most [d] before [init]; also true before the first step, when both feet are put down at [init]. *)
Definition recent {P : Type} (l r : list (P * f64)) (init : f64) (d : R) : Prop :=
  0 <= d /\ (l ++ r = [] \/ exists x, In x (l ++ r) /\ f2r init - d <= f2r (snd x)).
