(** Model of the step search of src/UnicyclePlanner.cpp: relative positions, main loop of
    computeNewSteps, terminal step, final synchronisation. *)
From Coq Require Import Reals Lra List Bool String.
From Verif Require Import Prelude FootPrint UnicycleFoot Ellipse Optimization.
Import ListNotations.
Open Scope R_scope.

(** Members of UnicyclePlanner read by the search (include/UnicyclePlanner.h:42-46).
    [g_sol] is getIntegratorSolution (src/UnicyclePlanner.cpp:290-308): the integrated unicycle pose
    at a time; here an arbitrary function of time, see IntDoubles.v for the lookup itself. *)
Record scfg : Type := MkCfg {
  g_init : R; g_end : R;
  g_minT : R; g_maxT : R; g_nomT : R; g_dT : R;
  g_prob : problem;
  g_sol : R -> ustate
}.

(** src/UnicyclePlanner.cpp:216-256, get_rPl.  [left], [right] are m_left, m_right. *)
Definition get_rPl (swingLeft : bool) (left right : foot) (u : ustate) : option vec2 :=
  if swingLeft then
    match ft_getLast right, ft_posFromUnicycle left u with
    | Some prev, Some np => Some (rotT (st_angle prev) (vsub np (st_pos prev)))
    | _, _ => None
    end
  else
    match ft_getLast left, ft_posFromUnicycle right u with
    | Some prev, Some np => Some (rotT (u_angle u) (vsub (st_pos prev) np))
    | _, _ => None
    end.

(** src/UnicyclePlanner.cpp:258-288, get_newStepRelativePosition. *)
Definition get_rel (swingLeft : bool) (left right : foot) (u : ustate) : option vec2 :=
  let stance := if swingLeft then right else left in
  let swing := if swingLeft then left else right in
  match ft_getLast stance, ft_posFromUnicycle swing u with
  | Some prev, Some np => Some (rotT (st_angle prev) (vsub np (st_pos prev)))
  | _, _ => None
  end.

(** Local variables and members changed by the main loop (src/UnicyclePlanner.cpp:796-937).
    stanceFoot/swingFoot (lines 810-811, 891-892) are determined by m_swingLeft.
    rPl, newFootPosition, relativePlannedPosition, deltaAngle are recomputed before each use that is
    not console output, so they are not part of the state. *)
Record sst : Type := MkS {
  s_left : foot; s_right : foot;
  s_swingLeft : bool; s_first : bool;
  s_t : R; s_tOpt : R; s_minCost : R; s_pause : R; s_offset : R;
  s_prev : step
}.

Definition stanceOf (s : sst) : foot := if s_swingLeft s then s_right s else s_left s.
Definition swingOf (s : sst) : foot := if s_swingLeft s then s_left s else s_right s.

(** Replace the swing foot, then other fields (bookkeeping of the model). *)
Definition set_swing (s : sst) (f : foot) : foot * foot :=
  if s_swingLeft s then (f, s_right s) else (s_left s, f).

(** src/UnicyclePlanner.cpp:932-936, advance of time. *)
Definition advance (c : scfg) (t : R) : R :=
  if Rgtb (t + g_dT c) (g_end c) && Rltb t (g_end c) then g_end c else t + g_dT c.

Definition set_t (s : sst) (t : R) : sst :=
  MkS (s_left s) (s_right s) (s_swingLeft s) (s_first s) t (s_tOpt s) (s_minCost s) (s_pause s)
      (s_offset s) (s_prev s).

(** Lines 843-860: place the best sample. *)
Definition place_best (c : scfg) (s : sst) : res sst :=
  let u := g_sol c (s_tOpt s) in
  let '(f, ok) := ft_addFromUnicycle u (s_tOpt s) (swingOf s) in
  if negb ok then Fail
  else
    let '(l, r) := set_swing s f in
    Ok (MkS l r (negb (s_swingLeft s)) false (s_tOpt s) (-1) (s_minCost s) 0 0 (s_prev s)).

(** Lines 862-889: no feasible sample; parallel step unless it would be tiny. *)
Definition place_parallel (c : scfg) (s : sst) : res sst :=
  match ft_stateFromStep (stanceOf s) (s_prev s) with
  | None => Fail
  | Some u =>
      if negb (ft_isTiny u (swingOf s)) then
        let '(f, ok) := ft_addParallel (stanceOf s) (s_t s) (swingOf s) in
        if negb ok then Fail
        else
          let '(l, r) := set_swing s f in
          Ok (MkS l r (negb (s_swingLeft s)) false (s_t s) (s_tOpt s) (s_minCost s) 0 0 (s_prev s))
      else
        Ok (MkS (s_left s) (s_right s) (s_swingLeft s) (s_first s) (s_t s) (s_tOpt s) (s_minCost s)
                (s_t s - st_time (s_prev s)) (s_offset s) (s_prev s))
  end.

(** Lines 891-897: refresh prevStep from the (new) stance foot. *)
Definition refresh_prev (s : sst) : res sst :=
  match ft_getLast (stanceOf s) with
  | None => Fail
  | Some p => Ok (MkS (s_left s) (s_right s) (s_swingLeft s) (s_first s) (s_t s) (s_tOpt s)
                      (s_minCost s) (s_pause s) (s_offset s) p)
  end.

(** The point evaluated at line 914 / 340. *)
Definition cand_of (rPl : vec2) (dAngle dTime : R) (pos rel : vec2) : cand :=
  MkCand rPl dAngle dTime pos rel.

(** Lines 899-926: evaluate one sample.  [dt] is the step duration without pause. *)
Definition try_sample (c : scfg) (s : sst) (u : ustate) (dAngle dt : R) : res sst :=
  match get_rPl (s_swingLeft s) (s_left s) (s_right s) u,
        get_rel (s_swingLeft s) (s_left s) (s_right s) u,
        ft_posFromUnicycle (swingOf s) u with
  | Some rPl, Some rel, Some pos =>
      let cd := cand_of rPl dAngle dt pos rel in
      if Rgtb dt 0 && prob_feasible (g_prob c) cd then
        let cost := prob_cost (g_prob c) cd in
        if Rltb (s_tOpt s) 0 || Rleb cost (s_minCost s) then
          Ok (MkS (s_left s) (s_right s) (s_swingLeft s) (s_first s) (s_t s) (s_t s) cost (s_pause s)
                  (s_offset s) (s_prev s))
        else Ok s
      else Ok s
  | _, _, _ => Fail
  end.

(** Lines 829-930: one iteration without the advance of time. *)
Definition body (c : scfg) (s : sst) : res sst :=
  let dTime := s_t s - st_time (s_prev s) in
  let u := g_sol c (s_t s) in
  let dAngle := Rabs (ft_angleFromStep (stanceOf s) (s_prev s) - u_angle u) in
  if Rgeb dTime (g_minT c) && Rgtb (s_t s) (g_init c + s_offset s) then
    if negb (ft_isTiny u (swingOf s)) then
      let dt := dTime - s_pause s in
      if Rgtb dt (g_maxT c) || Reqb (s_t s) (g_end c) then
        do s1 <- (if Rgtb (s_tOpt s) 0 then place_best c s else place_parallel c s);
        refresh_prev s1
      else try_sample c s u dAngle dt
    else
      Ok (MkS (s_left s) (s_right s) (s_swingLeft s) (s_first s) (s_t s) (s_tOpt s) (s_minCost s)
              (s_pause s + g_dT c) (s_offset s) (s_prev s))
  else Ok s.

(** One full iteration of the while loop, lines 828-937. *)
Definition iter1 (c : scfg) (s : sst) : res sst :=
  do s' <- body c s; Ok (set_t s' (advance c (s_t s'))).

(** Outcome of the while loop with a bound on the number of iterations; [LFuel] = bound reached. *)
Inductive lres : Type :=
| LDone (s : sst)
| LFail
| LFuel.

Fixpoint run_loop (c : scfg) (fuel : nat) (s : sst) : lres :=
  if Rleb (s_t s) (g_end c) then
    match fuel with
    | O => LFuel
    | S f => match iter1 c s with
             | Ok s' => run_loop c f s'
             | _ => LFail
             end
    end
  else LDone s.

(** src/UnicyclePlanner.cpp:310-376, addTerminalStep(lastUnicycleState). *)
Definition terminal_step (c : scfg) (swingLeft : bool) (left right : foot) (u : ustate)
  : res (foot * foot) :=
  let stance := if swingLeft then right else left in
  let swing := if swingLeft then left else right in
  let back := fun sw st => if swingLeft : bool then (sw, st) else (st, sw) in
  match ft_getLast stance with
  | None => Fail
  | Some prev =>
      match get_rPl swingLeft left right u, get_rel swingLeft left right u,
            ft_posFromUnicycle swing u with
      | Some rPl, Some rel, Some pos =>
          let dAngle := Rabs (u_angle u - ft_angleFromStep stance prev) in
          let stepTime := Rmax (g_init c + g_nomT c) (st_time prev + g_nomT c) in
          let dTime := stepTime - st_time prev in
          let tinyStance := ft_isTiny u stance in
          let okC := prob_feasible (g_prob c) (cand_of rPl dAngle dTime pos rel) in
          let tinySwing := ft_isTiny u swing in
          if okC && negb tinyStance && negb tinySwing then
            let '(sw, ok1) := ft_addFromUnicycle u stepTime swing in
            if negb ok1 then Fail
            else
              let '(st, ok2) := ft_addFromUnicycle u (stepTime + g_nomT c) stance in
              if negb ok2 then Fail else Ok (back sw st)
          else
            match ft_stateFromStep stance prev with
            | None => Fail
            | Some up =>
                if negb (ft_isTiny up swing) then
                  let '(sw, ok) := ft_addParallel stance stepTime swing in
                  if negb ok then Fail else Ok (back sw stance)
                else Ok (left, right)
            end
      | _, _, _ => Fail
      end
  end.

(** src/UnicyclePlanner.cpp:952-976, synchronisation when no step was added.  Reading the last step
    of an empty foot print yields an uninitialised [Step]: [UB].  Returns the foot prints and the new
    m_startLeft. *)
Definition sync_feet (left right : footprint) (resetStart startLeft : bool)
  : res (footprint * footprint * bool) :=
  match fp_getLast left, fp_getLast right with
  | Some ll, Some lr =>
      if Rgtb (st_time ll) (st_time lr) then
        let '(r', _) := fp_addStep (st_pos lr) (st_angle lr) (st_time ll) (fp_clearLast right) in
        Ok (left, r', if resetStart then startLeft else false)
      else if Rltb (st_time ll) (st_time lr) then
        let '(l', _) := fp_addStep (st_pos ll) (st_angle ll) (st_time lr) (fp_clearLast left) in
        Ok (l', right, if resetStart then startLeft else true)
      else Ok (left, right, startLeft)
  | _, _ => UB
  end.

(** Result of the part of computeNewSteps after initializePlanner (lines 796-978): feet, m_swingLeft,
    m_startLeft. *)
Inductive pres : Type :=
| PDone (left right : foot) (swingLeft startLeft : bool)
| PFail
| PUB
| PFuel.

(** src/UnicyclePlanner.cpp:796-978.  [left], [right], [swingLeft], [first]: the members as left by
    initializePlanner; [addTerm], [resetStart], [startLeft]: settings. *)
Definition search_steps (c : scfg) (fuel : nat) (addTerm resetStart : bool)
  (left right : foot) (swingLeft first startLeft : bool) : pres :=
  let stance := if swingLeft then right else left in
  match ft_getLast stance with
  | None => PFail
  | Some prev =>
      let s0 := MkS left right swingLeft first (g_init c) (-1) (10 ^ 10)
                    (g_init c - st_time prev) (if first then g_nomT c else 0) prev in
      match run_loop c fuel s0 with
      | LFail => PFail
      | LFuel => PFuel
      | LDone s =>
          let r := if addTerm
                   then terminal_step c (s_swingLeft s) (s_left s) (s_right s) (g_sol c (g_end c))
                   else Ok (s_left s, s_right s) in
          match r with
          | Fail => PFail
          | UB => PUB
          | Ok (l, r) =>
              if Nat.eqb (ft_number left) (ft_number l) && Nat.eqb (ft_number right) (ft_number r)
              then match sync_feet (ft_fp l) (ft_fp r) resetStart startLeft with
                   | Ok (fl, fr, sl) => PDone (ft_withFP fl l) (ft_withFP fr r) (s_swingLeft s) sl
                   | Fail => PFail
                   | UB => PUB
                   end
              else PDone l r (s_swingLeft s) startLeft
          end
      end
  end.
