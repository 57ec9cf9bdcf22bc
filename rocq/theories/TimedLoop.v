(** The generator as a loop of generate and reGenerate calls over the arithmetic of Doubles.v: foot prints, planner
    (TimedPlan.v) and phases (DoublesGen.v).  Positions and angles are answers of an oracle as in TimedPlan.v; the plug-in
    generators are left out (none of them changes the foot prints or the phases). *)
From Coq Require Import String Reals ZArith List Bool.
From Verif Require Import Doubles DoublesGen Prelude FootPrint GenPhases Generator TimedPlan.
Import ListNotations.

Section Loop.
Variables N P : Type.
Variable A : arith N.

(** clearSteps followed by addStep: the foot, and what addStep returns. *)
Definition t_only (p : P) (t : N) : tfoot N P * bool :=
  match t_add A p t [] with Some f => (f, true) | None => ([], false) end.

(** src/FootPrint.cpp:72-87, keepOnlyPresentStep; [again]: a pose stored again in the foot. *)
Definition t_present (again : P -> P) (time : N) (f : tfoot N P) : tfoot N P * bool :=
  match find (fun x => a_le A (snd x) time) (rev f) with
  | None => (f, false)
  | Some x => t_only (again (fst x)) (snd x)
  end.

(** src/UnicycleGenerator.cpp:266-287: the steps that replace the present ones.  [eL], [eR]: pose of the measured step for
    the present pose (editStepFromMeasured); [mL], [mR]: measured impact times. *)
Definition t_edited (init : N) (reset : bool) (k : correction) (pl pr : P * N) (eL eR : P -> P) (mL mR : N) : (P * N) * (P * N) :=
  let tl := if corr_left k then mL else snd pl in
  let tr := if corr_right k then mR else snd pr in
  let late := a_lt A init tl || a_lt A init tr in
  let new := if a_lt A (snd pl) (snd pr) then snd pr else snd pl in
  ((if corr_left k then eL (fst pl) else fst pl, if reset then new else if late then snd pl else tl),
   (if corr_right k then eR (fst pr) else fst pr, if reset then new else if late then snd pr else tr)).

(** src/UnicycleGenerator.cpp:246-303, computeNewStepsFromMeasuredSteps up to the planner: feet and whether to go on.
    [reset]: shouldResetTime (line 260). *)
Definition t_ready (again : bool -> P -> P) (init : N) (reset : bool) (k : correction) (eL eR : P -> P) (mL mR : N)
  (left right : tfoot N P) : tfoot N P * tfoot N P * bool :=
  let (l, okl) := t_present (again true) init left in
  if negb okl then (l, right, false)
  else
    let (r, okr) := t_present (again false) init right in
    if negb okr then (l, r, false)
    else match last_opt l, last_opt r with
         | Some pl, Some pr =>
             let corr := match k with CNone => reset | _ => true end in
             let (el, er) := t_edited init reset k pl pr eL eR mL mR in
             let (l1, ok1) := if corr && (corr_left k || reset) then t_only (again true (fst el)) (snd el) else (l, true) in
             if negb ok1 then (l1, r, false)
             else
               let (r1, ok2) := if corr && (corr_right k || reset) then t_only (again false (fst er)) (snd er) else (r, true) in
               (l1, r1, ok2)
         | _, _ => (l, r, false)
         end.

(** ** Sequences of calls *)
(** Foot prints, m_startLeft, settings. *)
Record world : Type := MkW { wf_left : tfoot N P; wf_right : tfoot N P; wf_start : bool; wf_set : field -> N }.
(** Arguments and circumstances of a generate or reGenerate: answers of the geometry, fuel, initTime, endTime, dT,
    m_addTerminalStep, m_resetStartingFoot, m_pauseActive, and the result of std::sort. *)
Record wargs : Type := MkWA {
  x_geo : geo N P; x_fuel : nat; x_init : N; x_tend : N; x_dT : N; x_term : bool; x_rfoot : bool; x_pause : bool;
  x_sort : list (nstep N) -> list (nstep N) }.
(** The calls of a user: a setter, startWithLeft, clearSteps of both foot prints, generate, reGenerate. *)
Inductive wcall : Type :=
| WSet (s : setter N) | WStart (b : bool) | WClear
| WGen (x : wargs)
| WRe (x : wargs) (reset : bool) (k : correction) (eL eR : P -> P) (mL mR : N).
(** How a call ends: [WFuel] if the fuel of the search is exhausted, [WNoPlan] if false is returned before or by the
    planner, [WNoPhases] if the computation of the phases returns false. *)
Inductive wout : Type :=
| WOk | WGenerated (ord : list (nstep N)) (ph : phases) | WNoPlan | WNoPhases | WUndefined | WFuel.

(** Names of the foot prints. *)
Variables nL nR : string.
Definition named (n : string) (l : tfoot N P) : nfoot N := MkNF (map (fun x => (snd x, n)) l) n.

(** Settings and arguments for the planner. *)
Definition w_cfg (x : wargs) (w : world) : tcfg N :=
  let s := wf_set w in MkTC (s q_minT) (s q_maxT) (s q_nomT) (s q_period) (x_init x) (x_tend x) (x_term x) (x_rfoot x) (wf_start w).
(** What is left if the planner does not return true. *)
Definition w_rest (x : wargs) (w : world) (l r : tfoot N P) : world :=
  let '(l', r') := t_rest A (w_cfg x w) (x_geo x) (x_fuel x) l r in MkW l' r' (wf_start w) (wf_set w).
(** src/UnicycleGenerator.cpp:458-469 from the planner on, with the given foot prints. *)
Definition w_plan (x : wargs) (w : world) (l r : tfoot N P) : world * wout :=
  let s := wf_set w in
  let c := MkTC (s q_minT) (s q_maxT) (s q_nomT) (s q_period) (x_init x) (x_tend x) (x_term x) (x_rfoot x) (wf_start w) in
  match t_plan A c (x_geo x) (x_fuel x) l r with
  | TDone l' r' _ sl =>
      let L := named nL l' in let R := named nR r' in
      (MkW l' r' sl s,
       match n_generate A s (x_pause x) L R (x_init x) (x_dT x) (x_sort x (n_all (nf_steps L) (nf_steps R))) with
       | Ok (ord, ph) => WGenerated ord ph
       | Fail => WNoPhases
       | UB => WUndefined
       end)
  | TFail => (w_rest x w l r, WNoPlan)
  | TUB => (w_rest x w l r, WUndefined)
  | TFuel => (w_rest x w l r, WFuel)
  end.

Definition w_call (w : world) (k : wcall) : world * wout :=
  match k with
  | WSet s => (MkW (wf_left w) (wf_right w) (wf_start w) (fst (setv A s (wf_set w))), WOk)
  | WStart b => (MkW (wf_left w) (wf_right w) b (wf_set w), WOk)
  | WClear => (MkW [] [] (wf_start w) (wf_set w), WOk)
  | WGen x => w_plan x w (wf_left w) (wf_right w)
  | WRe x reset k eL eR mL mR =>
      let '(l, r, ok) := t_ready (o_again (x_geo x)) (x_init x) reset k eL eR mL mR (wf_left w) (wf_right w) in
      if ok then w_plan x w l r else (MkW l r (wf_start w) (wf_set w), WNoPlan)
  end.
(** State after construction; the default of m_startLeft is true (src/UnicyclePlanner.cpp). *)
Definition w_new : world := MkW [] [] true (initv A).
Definition w_after (l : list wcall) : world := fold_left (fun w k => fst (w_call w k)) l w_new.
End Loop.
Arguments t_only {N P}. Arguments t_present {N P}. Arguments t_edited {N P}. Arguments t_ready {N P}.
Arguments MkW {N P}. Arguments wf_left {N P}. Arguments wf_right {N P}. Arguments wf_start {N P}. Arguments wf_set {N P}.
Arguments MkWA {N P}. Arguments x_geo {N P}. Arguments x_fuel {N P}. Arguments x_init {N P}. Arguments x_tend {N P}.
Arguments x_dT {N P}. Arguments x_term {N P}. Arguments x_rfoot {N P}. Arguments x_pause {N P}. Arguments x_sort {N P}.
Arguments WSet {N P}. Arguments WStart {N P}. Arguments WClear {N P}. Arguments WGen {N P}. Arguments WRe {N P}.
Arguments WOk {N}. Arguments WGenerated {N}. Arguments WNoPlan {N}. Arguments WNoPhases {N}. Arguments WUndefined {N}. Arguments WFuel {N}.
Arguments named {N P}. Arguments w_cfg {N P}. Arguments w_rest {N P}. Arguments w_plan {N P}. Arguments w_call {N P}. Arguments w_new {N P}. Arguments w_after {N P}.
