(** Model of the configuration, initialisation and top level of src/UnicyclePlanner.cpp. *)
From Coq Require Import Reals Lra List Bool String.
From Verif Require Import Prelude FootPrint UnicycleFoot Ellipse Optimization PlannerSearch.
Import ListNotations.
Open Scope R_scope.

(** include/UnicyclePlanner.h: UnicycleController and FreeSpaceEllipseMethod. *)
Inductive ctrl : Type := CPerson | CDirect | CNavigation.
Inductive fsmethod : Type := FsReference | FsFootsteps | FsBoth.

(** Members of UnicyclePlanner set by the configuration methods (src/UnicyclePlanner.cpp:378-416).
    [pl_intStep]: maximum step of the integrator; [pl_navStep]: time step of the navigation
    controller.  The controllers themselves are modelled in Controllers.v and PersonFollowing.v. *)
Record plcfg : Type := MkPl {
  pl_minT : R; pl_maxT : R; pl_nomT : R; pl_dT : R;
  pl_minAngle : R; pl_nomWidth : R; pl_maxLen : R; pl_maxBack : R; pl_minLen : R; pl_maxAngle : R;
  pl_addTerm : bool; pl_startLeft : bool; pl_reset : bool;
  pl_leftYaw : R; pl_rightYaw : R;
  pl_linFac : R; pl_angFac : R;
  pl_ctrl : ctrl; pl_method : fsmethod;
  pl_intStep : R; pl_navStep : R;
  pl_prob : problem
}.

Definition deg2rad (d : R) : R := d * PI / 180.

(** src/UnicyclePlanner.cpp:378-416, constructor.  The problem receives a maximum length, a minimum
    width and a maximum angle, but no backward length (lines 411-415). *)
Definition pl_new : plcfg :=
  let p0 := prob_new in
  let p1 := fst (prob_setMaxLen (20 / 100) p0) in
  let p2 := fst (prob_setMinWidth (8 / 100) p1) in
  let p3 := fst (prob_setMaxAngle (deg2rad 45) p2) in
  let p4 := fst (prob_setWeights 1 (5 / 2) p3) in
  MkPl 3 10 4 (1 / 100) (deg2rad 5) (14 / 100) (2 / 10) (2 / 10) (5 / 100) (deg2rad 45)
       true true false 0 0 (9 / 10) (7 / 10) CPerson FsReference (1 / 100) (1 / 100) p4.

(** Field updates (bookkeeping of the model). *)
Definition pl_withProb (p : problem) (c : plcfg) : plcfg :=
  MkPl (pl_minT c) (pl_maxT c) (pl_nomT c) (pl_dT c) (pl_minAngle c) (pl_nomWidth c) (pl_maxLen c)
       (pl_maxBack c) (pl_minLen c) (pl_maxAngle c) (pl_addTerm c) (pl_startLeft c) (pl_reset c)
       (pl_leftYaw c) (pl_rightYaw c) (pl_linFac c) (pl_angFac c) (pl_ctrl c) (pl_method c)
       (pl_intStep c) (pl_navStep c) p.
Definition pl_withLens (ml mb : R) (c : plcfg) : plcfg :=
  MkPl (pl_minT c) (pl_maxT c) (pl_nomT c) (pl_dT c) (pl_minAngle c) (pl_nomWidth c) ml
       mb (pl_minLen c) (pl_maxAngle c) (pl_addTerm c) (pl_startLeft c) (pl_reset c)
       (pl_leftYaw c) (pl_rightYaw c) (pl_linFac c) (pl_angFac c) (pl_ctrl c) (pl_method c)
       (pl_intStep c) (pl_navStep c) (pl_prob c).
Definition pl_withAngles (mn mx : R) (c : plcfg) : plcfg :=
  MkPl (pl_minT c) (pl_maxT c) (pl_nomT c) (pl_dT c) mn (pl_nomWidth c) (pl_maxLen c)
       (pl_maxBack c) (pl_minLen c) mx (pl_addTerm c) (pl_startLeft c) (pl_reset c)
       (pl_leftYaw c) (pl_rightYaw c) (pl_linFac c) (pl_angFac c) (pl_ctrl c) (pl_method c)
       (pl_intStep c) (pl_navStep c) (pl_prob c).
Definition pl_withTimes (mn mx nom dT : R) (c : plcfg) : plcfg :=
  MkPl mn mx nom dT (pl_minAngle c) (pl_nomWidth c) (pl_maxLen c)
       (pl_maxBack c) (pl_minLen c) (pl_maxAngle c) (pl_addTerm c) (pl_startLeft c) (pl_reset c)
       (pl_leftYaw c) (pl_rightYaw c) (pl_linFac c) (pl_angFac c) (pl_ctrl c) (pl_method c)
       (pl_intStep c) (pl_navStep c) (pl_prob c).
Definition pl_withWidth (nom minLen : R) (c : plcfg) : plcfg :=
  MkPl (pl_minT c) (pl_maxT c) (pl_nomT c) (pl_dT c) (pl_minAngle c) nom (pl_maxLen c)
       (pl_maxBack c) minLen (pl_maxAngle c) (pl_addTerm c) (pl_startLeft c) (pl_reset c)
       (pl_leftYaw c) (pl_rightYaw c) (pl_linFac c) (pl_angFac c) (pl_ctrl c) (pl_method c)
       (pl_intStep c) (pl_navStep c) (pl_prob c).
Definition pl_withFlags (term start reset : bool) (c : plcfg) : plcfg :=
  MkPl (pl_minT c) (pl_maxT c) (pl_nomT c) (pl_dT c) (pl_minAngle c) (pl_nomWidth c) (pl_maxLen c)
       (pl_maxBack c) (pl_minLen c) (pl_maxAngle c) term start reset
       (pl_leftYaw c) (pl_rightYaw c) (pl_linFac c) (pl_angFac c) (pl_ctrl c) (pl_method c)
       (pl_intStep c) (pl_navStep c) (pl_prob c).
Definition pl_withYaws (l r : R) (c : plcfg) : plcfg :=
  MkPl (pl_minT c) (pl_maxT c) (pl_nomT c) (pl_dT c) (pl_minAngle c) (pl_nomWidth c) (pl_maxLen c)
       (pl_maxBack c) (pl_minLen c) (pl_maxAngle c) (pl_addTerm c) (pl_startLeft c) (pl_reset c)
       l r (pl_linFac c) (pl_angFac c) (pl_ctrl c) (pl_method c)
       (pl_intStep c) (pl_navStep c) (pl_prob c).
Definition pl_withFactors (lf af : R) (c : plcfg) : plcfg :=
  MkPl (pl_minT c) (pl_maxT c) (pl_nomT c) (pl_dT c) (pl_minAngle c) (pl_nomWidth c) (pl_maxLen c)
       (pl_maxBack c) (pl_minLen c) (pl_maxAngle c) (pl_addTerm c) (pl_startLeft c) (pl_reset c)
       (pl_leftYaw c) (pl_rightYaw c) lf af (pl_ctrl c) (pl_method c)
       (pl_intStep c) (pl_navStep c) (pl_prob c).
Definition pl_withModes (k : ctrl) (m : fsmethod) (c : plcfg) : plcfg :=
  MkPl (pl_minT c) (pl_maxT c) (pl_nomT c) (pl_dT c) (pl_minAngle c) (pl_nomWidth c) (pl_maxLen c)
       (pl_maxBack c) (pl_minLen c) (pl_maxAngle c) (pl_addTerm c) (pl_startLeft c) (pl_reset c)
       (pl_leftYaw c) (pl_rightYaw c) (pl_linFac c) (pl_angFac c) k m
       (pl_intStep c) (pl_navStep c) (pl_prob c).
Definition pl_withSteps (is ns : R) (c : plcfg) : plcfg :=
  MkPl (pl_minT c) (pl_maxT c) (pl_nomT c) (pl_dT c) (pl_minAngle c) (pl_nomWidth c) (pl_maxLen c)
       (pl_maxBack c) (pl_minLen c) (pl_maxAngle c) (pl_addTerm c) (pl_startLeft c) (pl_reset c)
       (pl_leftYaw c) (pl_rightYaw c) (pl_linFac c) (pl_angFac c) (pl_ctrl c) (pl_method c)
       is ns (pl_prob c).

(** src/UnicyclePlanner.cpp:526-546, setSaturationsConservativeFactors. *)
Definition pl_setFactors (lf af : R) (c : plcfg) : plcfg * bool :=
  if Rltb lf 0 || Rgtb lf 1 then (c, false)
  else if Rltb af 0 || Rgtb af 1 then (c, false)
  else (pl_withFactors lf af c, true).

(** src/UnicyclePlanner.cpp:549-559, setMaximumIntegratorStepSize, with
    src/UnicycleNavigationController.cpp:239-253, setTimeStep, and the iDynTree integrator, which
    refuses a non-positive step (iDynTree Integrator::setMaximumStepSize, external: modelled as
    refusing [dT <= 0]). *)
Definition pl_setIntStep (dT : R) (c : plcfg) : plcfg * bool :=
  if Reqb dT 0 then (c, false)
  else
    let c1 := pl_withSteps (pl_intStep c) (Rabs dT) c in
    if Rleb dT 0 then (c1, false) else (pl_withSteps dT (Rabs dT) c, true).

(** src/UnicyclePlanner.cpp:561-577, setMaxStepLength(maxLength). *)
Definition pl_setMaxLen1 (ml : R) (c : plcfg) : plcfg * bool :=
  let '(p1, ok1) := prob_setMaxLen ml (pl_prob c) in
  let c1 := pl_withProb p1 c in
  if negb ok1 then (c1, false)
  else
    let c2 := pl_withLens ml (pl_maxBack c1) c1 in
    let '(p2, ok2) := prob_setMaxBack ml (pl_prob c2) in
    let c3 := pl_withProb p2 c2 in
    if negb ok2 then (c3, false) else (pl_withLens (pl_maxLen c3) ml c3, true).

(** src/UnicyclePlanner.cpp:579-602, setMaxStepLength(maxLength, backwardMultiplier). *)
Definition pl_setMaxLen2 (ml mult : R) (c : plcfg) : plcfg * bool :=
  if Rltb mult 0 then (c, false)
  else
    let '(p1, ok1) := prob_setMaxLen ml (pl_prob c) in
    let c1 := pl_withProb p1 c in
    if negb ok1 then (c1, false)
    else
      let c2 := pl_withLens ml (pl_maxBack c1) c1 in
      let mb := ml * mult in
      let '(p2, ok2) := prob_setMaxBack mb (pl_prob c2) in
      let c3 := pl_withProb p2 c2 in
      if negb ok2 then (c3, false) else (pl_withLens (pl_maxLen c3) mb c3, true).

(** src/UnicyclePlanner.cpp:605-614, setMaxAngleVariation. *)
Definition pl_setMaxAngle (a : R) (c : plcfg) : plcfg * bool :=
  let '(p1, ok1) := prob_setMaxAngle a (pl_prob c) in
  let c1 := pl_withProb p1 c in
  if ok1 then (pl_withAngles (pl_minAngle c1) a c1, true) else (c1, false).

(** src/UnicyclePlanner.cpp:616-621, setCostWeights. *)
Definition pl_setWeights (pw tw : R) (c : plcfg) : plcfg * bool :=
  let '(p1, ok1) := prob_setWeights pw tw (pl_prob c) in (pl_withProb p1 c, ok1).

(** src/UnicyclePlanner.cpp:623-647, setStepTimings. *)
Definition pl_setTimings (mn mx nom : R) (c : plcfg) : plcfg * bool :=
  if Rltb mn 0 || Rltb mx 0 || Rltb nom 0 then (c, false)
  else if Rgtb mn mx then (c, false)
  else if Rltb nom mn || Rltb mx nom then (c, false)
  else (pl_withTimes mn mx nom (pl_dT c) c, true).

(** src/UnicyclePlanner.cpp:649-661, setPlannerPeriod. *)
Definition pl_setPeriod (dT : R) (c : plcfg) : plcfg * bool :=
  if Rltb dT 0 then (c, false) else (pl_withTimes (pl_minT c) (pl_maxT c) (pl_nomT c) dT c, true).

(** src/UnicyclePlanner.cpp:663-675, setMinimumAngleForNewSteps. *)
Definition pl_setMinAngle (a : R) (c : plcfg) : plcfg * bool :=
  if Rltb a 0 then (c, false) else (pl_withAngles a (pl_maxAngle c) c, true).

(** src/UnicyclePlanner.cpp:677-687, setMinimumStepLength. *)
Definition pl_setMinLen (l : R) (c : plcfg) : plcfg * bool :=
  if Rltb l 0 then (c, false) else (pl_withWidth (pl_nomWidth c) l c, true).

(** src/UnicyclePlanner.cpp:689-709, setWidthSetting. *)
Definition pl_setWidth (mn nom : R) (c : plcfg) : plcfg * bool :=
  if Rltb nom 0 then (c, false)
  else if Rltb nom mn then (c, false)
  else
    let '(p1, ok1) := prob_setMinWidth mn (pl_prob c) in
    let c1 := pl_withProb p1 c in
    if negb ok1 then (c1, false) else (pl_withWidth nom (pl_minLen c1) c1, true).

(** Configuration calls of UnicyclePlanner; the void setters are lines 711-744, 1000-1007
    (setFreeSpaceEllipseMethod resets the ellipse of the problem), 1055-1076.  [PlEll e] is the part of
    setFreeSpaceEllipse (lines 1009-1031) that concerns the problem, when the person following
    controller accepted the ellipse. *)
Inductive plop : Type :=
| PlFactors (lf af : R) | PlIntStep (dT : R) | PlMaxLen1 (ml : R) | PlMaxLen2 (ml mult : R)
| PlMaxAngle (a : R) | PlWeights (pw tw : R) | PlTimings (mn mx nom : R) | PlPeriod (dT : R)
| PlMinAngle (a : R) | PlMinLen (l : R) | PlWidth (mn nom : R)
| PlAddTerm (b : bool) | PlStartLeft (b : bool) | PlReset (b : bool)
| PlLeftYaw (y : R) | PlRightYaw (y : R) | PlController (k : ctrl) | PlMethod (m : fsmethod)
| PlEll (e : ell).

(** One call: new configuration and returned value ([true] for void methods). *)
Definition pl_call (c : plcfg) (o : plop) : plcfg * bool :=
  match o with
  | PlFactors lf af => pl_setFactors lf af c
  | PlIntStep d => pl_setIntStep d c
  | PlMaxLen1 ml => pl_setMaxLen1 ml c
  | PlMaxLen2 ml k => pl_setMaxLen2 ml k c
  | PlMaxAngle a => pl_setMaxAngle a c
  | PlWeights a b => pl_setWeights a b c
  | PlTimings a b n => pl_setTimings a b n c
  | PlPeriod d => pl_setPeriod d c
  | PlMinAngle a => pl_setMinAngle a c
  | PlMinLen l => pl_setMinLen l c
  | PlWidth a b => pl_setWidth a b c
  | PlAddTerm b => (pl_withFlags b (pl_startLeft c) (pl_reset c) c, true)
  | PlStartLeft b => (pl_withFlags (pl_addTerm c) b (pl_reset c) c, true)
  | PlReset b => (pl_withFlags (pl_addTerm c) (pl_startLeft c) b c, true)
  | PlLeftYaw y => (pl_withYaws y (pl_rightYaw c) c, true)
  | PlRightYaw y => (pl_withYaws (pl_leftYaw c) y c, true)
  | PlController k => (pl_withModes k (pl_method c) c, true)
  | PlMethod m => (pl_withModes (pl_ctrl c) m (pl_withProb (prob_setEll ell_clear (pl_prob c)) c), true)
  | PlEll e => match pl_method c with
               | FsReference => (c, true)
               | _ => (pl_withProb (prob_setEll e (pl_prob c)) c, true)
               end
  end.
Definition pl_run (c : plcfg) (o : plop) : plcfg := fst (pl_call c o).
Definition pl_history (ops : list plop) : plcfg := fold_left pl_run ops pl_new.

(** What the controllers and the integrator contribute to one planning call (modelled separately):
    [v_satOk]: setSaturations of the controllers succeeded (lines 779-791); [v_point]: person
    following reference at the initial time (line 27), [v_person]: person distance (lines 30-31),
    [v_lateral]: desired lateral velocity of the current controller (lines 147-163), [v_integ]: the
    trajectory integrated from an initial pose, [None] if the integration fails (lines 205-210). *)
Record planenv : Type := MkEnv {
  v_satOk : bool; v_point : option vec2; v_person : vec2; v_lateral : R;
  v_integ : ustate -> option (R -> ustate)
}.

(** src/UnicyclePlanner.cpp:172-192: foot parameters set by initializePlanner.  The tiny length and
    angle are never negative (C32), so those setters do not fail. *)
Definition pl_foot (c : plcfg) (isLeft : bool) (fp : footprint) : foot :=
  MkFoot fp true (V2 0 (if isLeft then pl_nomWidth c / 2 else - pl_nomWidth c / 2))
         (if isLeft then pl_leftYaw c else pl_rightYaw c) (pl_minLen c) (pl_minAngle c).

(** Feet, swing foot, first step flag, initial pose. *)
Record planinit : Type := MkInit {
  i_left : foot; i_right : foot; i_swingLeft : bool; i_first : bool; i_state : ustate
}.

(** src/UnicyclePlanner.cpp:14-120 up to line 120: state from the feet.  [None] = returned false.
    The result also holds initTimeFromFeet ([None] in the first case, where it is not used).
    When both foot prints are empty the results of the two addStepFromUnicycle calls are ignored
    (lines 47-48). *)
Definition feet_state (c : plcfg) (e : planenv) (init : R) (l r : foot)
  : option (planinit * option R) :=
  match ft_getLast l, ft_getLast r with
  | None, None =>
      let st := match pl_ctrl c with
                | CPerson => match v_point e with
                             | None => None
                             | Some p => Some (MkU (vsub p (v_person e)) 0)
                             end
                | _ => Some (MkU vzero 0)
                end in
      match st with
      | None => None
      | Some u =>
          Some (MkInit (fst (ft_addFromUnicycle u init l)) (fst (ft_addFromUnicycle u init r))
                       (pl_startLeft c) true u, None)
      end
  | None, Some lr =>
      match ft_stateFromStep r lr with
      | None => None
      | Some u => Some (MkInit l r true false u, Some (st_time lr))
      end
  | Some ll, None =>
      match ft_stateFromStep l ll with
      | None => None
      | Some u => Some (MkInit l r false false u, Some (st_time ll))
      end
  | Some ll, Some lr =>
      if Reqb (st_time ll) (st_time lr) then
        match (if pl_startLeft c then ft_stateFromStep r lr else ft_stateFromStep l ll) with
        | None => None
        | Some u => Some (MkInit l r (pl_startLeft c) true u, Some (st_time ll))
        end
      else if Rltb (st_time ll) (st_time lr) then
        match ft_stateFromStep r lr with
        | None => None
        | Some u => Some (MkInit l r true false u, Some (st_time lr))
        end
      else
        match ft_stateFromStep l ll with
        | None => None
        | Some u => Some (MkInit l r false false u, Some (st_time ll))
        end
  end.

(** src/UnicyclePlanner.cpp:121-166: time check, reference point of the person following controller
    (refused for a negative time, src/PersonFollowingController.cpp:145; the second point, lines
    134-137, is at init + nominal - minimum time), choice of the first swing foot. *)
Definition init_state (c : plcfg) (e : planenv) (init : R) (l r : foot) : option planinit :=
  match feet_state c e init l r with
  | None => None
  | Some (i, tf) =>
      let refused := match tf with
                     | None => false
                     | Some t0 => Rltb init t0 || Rltb init 0
                                  || (i_first i && Rltb (init + pl_nomT c - pl_minT c) 0)
                     end in
      if refused then None
      else
        let sw := match pl_ctrl c with
                  | CPerson => i_swingLeft i
                  | _ => if i_first i && Rgtb (Rabs (v_lateral e)) 0 then Rgtb (v_lateral e) 0
                         else i_swingLeft i
                  end in
        Some (MkInit (i_left i) (i_right i) sw (i_first i) (i_state i))
  end.

(** src/UnicyclePlanner.cpp:169-214, initializePlanner: initial data and integrated trajectory. *)
Definition init_planner (c : plcfg) (e : planenv) (init tend : R) (lfp rfp : footprint)
  : option (planinit * (R -> ustate)) :=
  match init_state c e init (pl_foot c true lfp) (pl_foot c false rfp) with
  | None => None
  | Some i =>
      if Rleb tend init then None
      else match v_integ e (i_state i) with
           | None => None
           | Some sol => Some (i, sol)
           end
  end.

(** Configuration read by the search. *)
Definition pl_search (c : plcfg) (init tend : R) (sol : R -> ustate) : scfg :=
  MkCfg init tend (pl_minT c) (pl_maxT c) (pl_nomT c) (pl_dT c) (pl_prob c) sol.

(** src/UnicyclePlanner.cpp:746-979, computeNewSteps, for non-null pointers. *)
Definition compute_new_steps (c : plcfg) (e : planenv) (fuel : nat) (lfp rfp : footprint)
  (init tend : R) : pres :=
  if Rgtb (pl_nomWidth c) (pl_maxLen c) then PFail
  else if Rgtb (pl_nomWidth c) (pl_maxBack c) then PFail
  else if Rgeb (pl_minAngle c) (pl_maxAngle c) then PFail
  else if negb (v_satOk e) then PFail
  else match init_planner c e init tend lfp rfp with
       | None => PFail
       | Some (i, sol) =>
           search_steps (pl_search c init tend sol) fuel (pl_addTerm c) (pl_reset c)
                        (i_left i) (i_right i) (i_swingLeft i) (i_first i) (pl_startLeft c)
       end.
