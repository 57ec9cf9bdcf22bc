(** computeNewSteps of src/UnicyclePlanner.cpp over the arithmetic of Doubles.v.  Times are computed as in the code;
    everything that concerns positions and angles (sines, square roots, constraints, cost, integration) is an oracle:
    an arbitrary answer for the given feet and times.  The exact model is the instance with reals and the geometry of
    PlannerSearch.v, Planner.v (TimedPlanSpec.v). *)
From Coq Require Import Reals ZArith List Bool.
From Verif Require Import Prelude FootPrint Doubles.
Import ListNotations.

Section Plan.
Variables N P : Type.
Variable A : arith N.

(** Steps of a foot print: position, angle and name, and the impact time. *)
Definition tfoot : Type := list (P * N).

(** Settings and arguments: m_minTime, m_maxTime, m_nominalTime, m_dT, initTime, endTime, m_addTerminalStep,
    m_resetStartingFoot, m_startLeft. *)
Record tcfg : Type := MkTC {
  c_min : N; c_max : N; c_nom : N; c_dT : N; c_init : N; c_end : N; c_addTerm : bool; c_reset : bool; c_startLeft : bool }.

(** Answers that depend on positions.  A Boolean foot is the left one if [true]; [tfoot] arguments are the feet at that
    moment, left then right.
    [o_checks]: checks of lines 750-787; [o_integ]: the integration (203-210); [o_point]: getDesiredPoint (27-28);
    [o_first b]: first step of foot b (47-48); [o_lateral]: foot chosen by the lateral velocity, if any (149-163);
    [o_tiny]: isTinyStep of the swing foot at a time (837); [o_cand]: lines 901-919 for stance step, time and step
    duration, [None] if false is returned, [Some None] if the constraints are violated, else the cost;
    [o_pose]: pose of a foot on the unicycle at a time (845, 344, 349), [None] if it cannot be computed;
    [o_still]: lines 868-872, isTinyStep for the unicycle of the stance step; [o_par]: addParallelStep (875, 367);
    [o_term]: lines 325-343, whether two terminal steps are placed, for stance step and duration;
    [o_again b]: a pose stored again by addStep in foot b (959, 970). *)
Record geo : Type := MkGeo {
  o_checks : bool; o_integ : bool; o_point : bool; o_first : bool -> P; o_lateral : option bool;
  o_tiny : bool -> tfoot -> tfoot -> N -> bool;
  o_cand : bool -> tfoot -> tfoot -> P * N -> N -> N -> option (option N);
  o_pose : bool -> tfoot -> tfoot -> N -> option P;
  o_still : bool -> tfoot -> tfoot -> P * N -> option bool;
  o_par : bool -> tfoot -> tfoot -> option P;
  o_term : bool -> tfoot -> tfoot -> P * N -> N -> option bool;
  o_again : bool -> P -> P }.

Variable c : tcfg.
Variable o : geo.

(** src/FootPrint.cpp:23-45, addStep. *)
Definition t_add (p : P) (t : N) (f : tfoot) : option tfoot := if below0 A t then None else Some (f ++ [(p, t)]).

(** Variables of the search, see [sst]. *)
Record tst : Type := MkTS {
  t_left : tfoot; t_right : tfoot; t_sw : bool; t_t : N; t_opt : N; t_minCost : N; t_pause : N; t_off : N; t_prev : P * N }.
Definition t_stance (s : tst) : tfoot := if t_sw s then t_right s else t_left s.
Definition t_swing (s : tst) : tfoot := if t_sw s then t_left s else t_right s.

(** The swing foot gets a step: new left and right foot. *)
Definition t_step (sw : bool) (l r : tfoot) (p : P) (t : N) : option (tfoot * tfoot) :=
  if sw then match t_add p t l with Some l' => Some (l', r) | None => None end
  else match t_add p t r with Some r' => Some (l, r') | None => None end.

(** src/UnicyclePlanner.cpp:932-936. *)
Definition t_advance (t : N) : N :=
  if a_lt A (c_end c) (a_add A t (c_dT c)) && a_lt A t (c_end c) then c_end c else a_add A t (c_dT c).

(** Lines 843-860. *)
Definition t_best (s : tst) : res tst :=
  match o_pose o (t_sw s) (t_left s) (t_right s) (t_opt s) with
  | None => Fail
  | Some p =>
      match t_step (t_sw s) (t_left s) (t_right s) p (t_opt s) with
      | None => Fail
      | Some (l, r) => Ok (MkTS l r (negb (t_sw s)) (t_opt s) (a_q A (-1) 1) (t_minCost s) (c0 A) (c0 A) (t_prev s))
      end
  end.

(** Lines 862-889. *)
Definition t_parallel (s : tst) : res tst :=
  match o_still o (t_sw s) (t_left s) (t_right s) (t_prev s) with
  | None => Fail
  | Some tiny =>
      if negb tiny then
        match o_par o (t_sw s) (t_left s) (t_right s) with
        | None => Fail
        | Some p =>
            match t_step (t_sw s) (t_left s) (t_right s) p (t_t s) with
            | None => Fail
            | Some (l, r) => Ok (MkTS l r (negb (t_sw s)) (t_t s) (t_opt s) (t_minCost s) (c0 A) (c0 A) (t_prev s))
            end
        end
      else Ok (MkTS (t_left s) (t_right s) (t_sw s) (t_t s) (t_opt s) (t_minCost s)
                    (a_sub A (t_t s) (snd (t_prev s))) (t_off s) (t_prev s))
  end.

(** Lines 891-897. *)
Definition t_refresh (s : tst) : res tst :=
  match last_opt (t_stance s) with
  | None => Fail
  | Some p => Ok (MkTS (t_left s) (t_right s) (t_sw s) (t_t s) (t_opt s) (t_minCost s) (t_pause s) (t_off s) p)
  end.

(** Lines 899-926. *)
Definition t_try (s : tst) (dt : N) : res tst :=
  match o_cand o (t_sw s) (t_left s) (t_right s) (t_prev s) (t_t s) dt with
  | None => Fail
  | Some cand =>
      match (if a_lt A (c0 A) dt then cand else None) with
      | None => Ok s
      | Some cost =>
          if a_lt A (t_opt s) (c0 A) || a_le A cost (t_minCost s)
          then Ok (MkTS (t_left s) (t_right s) (t_sw s) (t_t s) (t_t s) cost (t_pause s) (t_off s) (t_prev s))
          else Ok s
      end
  end.

(** Lines 829-930. *)
Definition t_body (s : tst) : res tst :=
  let dTime := a_sub A (t_t s) (snd (t_prev s)) in
  if a_le A (c_min c) dTime && a_lt A (a_add A (c_init c) (t_off s)) (t_t s) then
    if negb (o_tiny o (t_sw s) (t_left s) (t_right s) (t_t s)) then
      let dt := a_sub A dTime (t_pause s) in
      if a_lt A (c_max c) dt || a_eq A (t_t s) (c_end c) then
        do s1 <- (if a_lt A (c0 A) (t_opt s) then t_best s else t_parallel s);
        t_refresh s1
      else t_try s dt
    else Ok (MkTS (t_left s) (t_right s) (t_sw s) (t_t s) (t_opt s) (t_minCost s) (a_add A (t_pause s) (c_dT c)) (t_off s) (t_prev s))
  else Ok s.

(** One iteration, lines 828-937. *)
Definition t_iter (s : tst) : res tst :=
  do s' <- t_body s;
  Ok (MkTS (t_left s') (t_right s') (t_sw s') (t_advance (t_t s')) (t_opt s') (t_minCost s') (t_pause s') (t_off s') (t_prev s')).

Inductive tlres : Type := TLDone (s : tst) | TLFail | TLFuel.
Fixpoint t_run (fuel : nat) (s : tst) : tlres :=
  if a_le A (t_t s) (c_end c) then
    match fuel with
    | O => TLFuel
    | S f => match t_iter s with Ok s' => t_run f s' | _ => TLFail end
    end
  else TLDone s.

(** src/UnicyclePlanner.cpp:310-376, addTerminalStep; [std::max(a, b)] is [a < b ? b : a]. *)
Definition t_terminal (sw : bool) (l r : tfoot) : res (tfoot * tfoot) :=
  match last_opt (if sw then r else l) with
  | None => Fail
  | Some prev =>
      let a := a_add A (c_init c) (c_nom c) in
      let b := a_add A (snd prev) (c_nom c) in
      let stepTime := if a_lt A a b then b else a in
      match o_term o sw l r prev (a_sub A stepTime (snd prev)) with
      | None => Fail
      | Some true =>
          match o_pose o sw l r (c_end c) with
          | None => Fail
          | Some p =>
              match t_step sw l r p stepTime with
              | None => Fail
              | Some (l1, r1) =>
                  match o_pose o (negb sw) l1 r1 (c_end c) with
                  | None => Fail
                  | Some q => match t_step (negb sw) l1 r1 q (a_add A stepTime (c_nom c)) with None => Fail | Some x => Ok x end
                  end
              end
          end
      | Some false =>
          match o_still o sw l r prev with
          | None => Fail
          | Some tiny =>
              if negb tiny then
                match o_par o sw l r with
                | None => Fail
                | Some p => match t_step sw l r p stepTime with None => Fail | Some x => Ok x end
                end
              else Ok (l, r)
          end
      end
  end.

(** Lines 952-976; reading the last step of an empty foot print yields an uninitialised step. *)
Definition t_sync (l r : tfoot) : res (tfoot * tfoot * bool) :=
  match last_opt l, last_opt r with
  | Some (p, tl), Some (q, tr) =>
      if a_lt A tr tl then
        Ok (l, match t_add (o_again o false q) tl (removelast r) with Some r' => r' | None => removelast r end,
            if c_reset c then c_startLeft c else false)
      else if a_lt A tl tr then
        Ok (match t_add (o_again o true p) tr (removelast l) with Some l' => l' | None => removelast l end, r,
            if c_reset c then c_startLeft c else true)
      else Ok (l, r, c_startLeft c)
  | _, _ => UB
  end.

Inductive tres : Type := TDone (left right : tfoot) (swingLeft startLeft : bool) | TFail | TUB | TFuel.

(** Lines 796-978. *)
Definition t_search (fuel : nat) (left right : tfoot) (sw first : bool) : tres :=
  match last_opt (if sw then right else left) with
  | None => TFail
  | Some prev =>
      match t_run fuel (MkTS left right sw (c_init c) (a_q A (-1) 1) (a_q A 10000000000 1)
                             (a_sub A (c_init c) (snd prev)) (if first then c_nom c else c0 A) prev) with
      | TLFail => TFail
      | TLFuel => TFuel
      | TLDone s =>
          match (if c_addTerm c then t_terminal (t_sw s) (t_left s) (t_right s) else Ok (t_left s, t_right s)) with
          | Fail => TFail
          | UB => TUB
          | Ok (l, r) =>
              if Nat.eqb (length left) (length l) && Nat.eqb (length right) (length r)
              then match t_sync l r with
                   | Ok (l2, r2, sl) => TDone l2 r2 (t_sw s) sl
                   | Fail => TFail
                   | UB => TUB
                   end
              else TDone l r (t_sw s) (c_startLeft c)
          end
      end
  end.

(** src/UnicyclePlanner.cpp:14-166, the part that concerns feet and times: feet, swing foot, first step flag; [None] if
    false is returned.  addStepFromUnicycle at lines 47-48 may fail silently. *)
Definition t_keep (p : P) (t : N) (f : tfoot) : tfoot := match t_add p t f with Some f' => f' | None => f end.
Definition t_feet (left right : tfoot) : option (tfoot * tfoot * bool * bool) :=
  let checked t0 first x :=
    if a_lt A (c_init c) t0 || below0 A (c_init c) || (first && below0 A (a_sub A (a_add A (c_init c) (c_nom c)) (c_min c)))
    then None else Some x in
  let chosen d := match o_lateral o with Some b => b | None => d end in
  match last_opt left, last_opt right with
  | None, None => if o_point o then Some (t_keep (o_first o true) (c_init c) left, t_keep (o_first o false) (c_init c) right, chosen (c_startLeft c), true)
                  else None
  | None, Some b => checked (snd b) false (left, right, true, false)
  | Some a, None => checked (snd a) false (left, right, false, false)
  | Some a, Some b =>
      if a_eq A (snd a) (snd b) then checked (snd a) true (left, right, chosen (c_startLeft c), true)
      else if a_lt A (snd a) (snd b) then checked (snd b) false (left, right, true, false)
      else checked (snd a) false (left, right, false, false)
  end.

(** src/UnicyclePlanner.cpp:746-979, computeNewSteps. *)
Definition t_plan (fuel : nat) (left right : tfoot) : tres :=
  if negb (o_checks o) then TFail
  else match t_feet left right with
       | None => TFail
       | Some (l, r, sw, first) =>
           if a_le A (c_end c) (c_init c) then TFail else if negb (o_integ o) then TFail else t_search fuel l r sw first
       end.

(** ** What is left behind *)
(** State of the search when the body returns false: a step may have been added before (lines 843-897). *)
Definition t_broken (s : tst) : tst :=
  let dt := a_sub A (a_sub A (t_t s) (snd (t_prev s))) (t_pause s) in
  if a_lt A (c_max c) dt || a_eq A (t_t s) (c_end c) then
    match (if a_lt A (c0 A) (t_opt s) then t_best s else t_parallel s) with Ok s1 => s1 | _ => s end
  else s.
(** State at the end of the search, however it ends. *)
Fixpoint t_halt (fuel : nat) (s : tst) : tst :=
  if a_le A (t_t s) (c_end c) then
    match fuel with
    | O => s
    | S f => match t_iter s with Ok s' => t_halt f s' | _ => t_broken s end
    end
  else s.
(** Feet after addTerminalStep: the first of two steps stays if the second one cannot be placed. *)
Definition t_torn (sw : bool) (l r : tfoot) : tfoot * tfoot :=
  match t_terminal sw l r, last_opt (if sw then r else l) with
  | Ok x, _ => x
  | _, None => (l, r)
  | _, Some prev =>
      let a := a_add A (c_init c) (c_nom c) in
      let b := a_add A (snd prev) (c_nom c) in
      let stepTime := if a_lt A a b then b else a in
      match o_term o sw l r prev (a_sub A stepTime (snd prev)), o_pose o sw l r (c_end c) with
      | Some true, Some p => match t_step sw l r p stepTime with Some x => x | None => (l, r) end
      | _, _ => (l, r)
      end
  end.
(** Foot prints after a computeNewSteps that does not return true, lines 746-979. *)
Definition t_rest (fuel : nat) (left right : tfoot) : tfoot * tfoot :=
  if negb (o_checks o) then (left, right)
  else match t_feet left right with
       | None => (left, right)
       | Some (l, r, sw, first) =>
           match last_opt (if sw then r else l) with
           | Some prev =>
               if a_le A (c_end c) (c_init c) || negb (o_integ o) then (l, r)
               else
                 let s0 := MkTS l r sw (c_init c) (a_q A (-1) 1) (a_q A 10000000000 1)
                                (a_sub A (c_init c) (snd prev)) (if first then c_nom c else c0 A) prev in
                 match t_run fuel s0 with
                 | TLDone s => if c_addTerm c then t_torn (t_sw s) (t_left s) (t_right s) else (t_left s, t_right s)
                 | _ => let s := t_halt fuel s0 in (t_left s, t_right s)
                 end
           | None => (l, r)
           end
       end.
End Plan.
Arguments MkTC {N}. Arguments c_min {N}. Arguments c_max {N}. Arguments c_nom {N}. Arguments c_dT {N}. Arguments c_init {N}.
Arguments c_end {N}. Arguments c_addTerm {N}. Arguments c_reset {N}. Arguments c_startLeft {N}.
Arguments MkGeo {N P}. Arguments o_checks {N P}. Arguments o_point {N P}. Arguments o_first {N P}. Arguments o_lateral {N P}.
Arguments o_tiny {N P}. Arguments o_cand {N P}. Arguments o_pose {N P}. Arguments o_still {N P}. Arguments o_par {N P}.
Arguments o_term {N P}. Arguments o_again {N P}.
Arguments t_add {N P}. Arguments MkTS {N P}. Arguments t_left {N P}. Arguments t_right {N P}. Arguments t_sw {N P}.
Arguments t_t {N P}. Arguments t_opt {N P}. Arguments t_minCost {N P}. Arguments t_pause {N P}. Arguments t_off {N P}.
Arguments t_prev {N P}. Arguments t_stance {N P}. Arguments t_swing {N P}. Arguments t_step {N P}. Arguments t_advance {N}.
Arguments t_best {N P}. Arguments t_parallel {N P}. Arguments t_refresh {N P}. Arguments t_try {N P}. Arguments t_body {N P}.
Arguments t_iter {N P}. Arguments TLDone {N P}. Arguments TLFail {N P}. Arguments TLFuel {N P}. Arguments t_run {N P}.
Arguments t_terminal {N P}. Arguments t_sync {N P}. Arguments TDone {N P}. Arguments TFail {N P}. Arguments TUB {N P}.
Arguments TFuel {N P}. Arguments t_search {N P}. Arguments t_keep {N P}. Arguments t_feet {N P}. Arguments t_plan {N P}.
Arguments o_integ {N P}. Arguments t_broken {N P}. Arguments t_halt {N P}. Arguments t_torn {N P}. Arguments t_rest {N P}.
