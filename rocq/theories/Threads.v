(** Model of the locking of the library: which mutexes every public method of one generator, its planner, its plug-ins and
    its foot prints acquires, and which shared data it touches meanwhile. *)
From Coq Require Import List Bool Arith.
Import ListNotations.

(** The mutexes: src/UnicycleGenerator.cpp:46, include/UnicyclePlanner.h:49, src/FeetCubicSplineGenerator.cpp:31,
    src/FeetMinimumJerkGenerator.cpp:28, src/ZMPTrajectoryGenerator.cpp:39, src/DCMTrajectoryGenerator.cpp:21,
    src/CoMHeightTrajectoryGenerator.cpp:25.  std::mutex is not recursive. *)
Inductive mutex : Type := MGen | MPlan | MSpline | MJerk | MZmp | MDcm | MCom.
Definition mutex_eqb (a b : mutex) : bool :=
  match a, b with
  | MGen, MGen | MPlan, MPlan | MSpline, MSpline | MJerk, MJerk | MZmp, MZmp | MDcm, MDcm | MCom, MCom => true
  | _, _ => false
  end.

(** Shared data, members grouped: pointers to the stored foot prints; their steps; switchPercentage, endSwitch and the
    step times; pauseActive; the merge point ratios; pointers to the plug-ins; phases, contacts, merge points and ordered
    steps (src/UnicycleGenerator.cpp:20-46); members of the planner, its problem and the controllers except the path;
    m_swingLeft; the path of the navigation controller (include/UnicyclePlanner.h:37-58); settings and results of each
    plug-in; the initial state of the DCM generator. *)
Inductive cell : Type :=
| CFeet | CSteps | CTimes | CPause | CMerge | CPlugs | CPhases
| CPlan | CSwing | CNav
| CSpline | CJerk | CZmp | CDcm | CDcmInit | CCom.
Definition cell_eqb (a b : cell) : bool :=
  match a, b with
  | CFeet, CFeet | CSteps, CSteps | CTimes, CTimes | CPause, CPause | CMerge, CMerge | CPlugs, CPlugs | CPhases, CPhases
  | CPlan, CPlan | CSwing, CSwing | CNav, CNav | CSpline, CSpline | CJerk, CJerk | CZmp, CZmp | CDcm, CDcm
  | CDcmInit, CDcmInit | CCom, CCom => true
  | _, _ => false
  end.

(** [Hold m b]: the scope of a [std::lock_guard]. *)
Inductive stmt : Type := Rd (c : cell) | Wr (c : cell) | Hold (m : mutex) (b : list stmt).

(** Public methods.  Overloads and methods with the same locking and the same data share a constructor; the comment at
    [body] lists them. *)
Inductive api : Type :=
(* UnicycleGenerator *)
| GFootPointers | GFromFootPrints | GGenerate | GReGenerate | GSetTimes | GSetPauseActive | GSetPauseConditions | GSetMergeRatio
| GGetPhases | GAddPlugin | GSetNavigationPath
(* UnicyclePlanner *)
| PSet | PComputeNewSteps | PComputeNewStepsShared | PStartWithLeft | PGetPersonPosition | PSetNavigationPath
(* FeetCubicSplineGenerator, FeetMinimumJerkGenerator, ZMPTrajectoryGenerator, CoMHeightTrajectoryGenerator *)
| SplineSet | SplineGet | JerkSet | JerkGet | ZSet | ZGet | HSet | HGet
(* DCMTrajectoryGenerator *)
| DSetInitial | DSet | DGetInitial | DGetReference | DGetWeights
(* FootPrint, on a foot print stored in the generator *)
| FRead | FWrite.

(** UnicyclePlanner::computeNewSteps, src/UnicyclePlanner.cpp:746-979.  The navigation controller keeps its path and its
    index in it, src/UnicycleNavigationController.cpp:64-188. *)
Definition plan_steps : list stmt := [Hold MPlan [Rd CPlan; Wr CPlan; Rd CSteps; Rd CNav; Wr CNav; Wr CSwing; Wr CSteps]].
(** UnicycleGenerator::generateFromFootPrints, src/UnicycleGenerator.cpp:357-456.  The plug-ins' computeNewTrajectories
    lock: FeetCubicSplineGenerator.cpp:218, FeetMinimumJerkGenerator.cpp:291, ZMPTrajectoryGenerator.cpp:514,
    DCMTrajectoryGenerator.cpp:48, CoMHeightTrajectoryGenerator.cpp:36. *)
Definition from_foot_prints : list stmt :=
  [Hold MGen [Wr CFeet; Rd CSteps; Rd CTimes; Wr CTimes; Rd CPause; Rd CMerge; Wr CPhases; Rd CPlugs;
              Hold MSpline [Rd CSteps; Rd CPhases; Wr CSpline];
              Hold MJerk [Rd CSteps; Rd CPhases; Wr CJerk];
              Rd CPause;
              Hold MZmp [Rd CSteps; Rd CPhases; Wr CZmp];
              Rd CPause;
              Hold MDcm [Rd CSteps; Rd CPhases; Rd CDcmInit; Wr CDcmInit; Wr CDcm];
              Hold MCom [Rd CPhases; Wr CCom]]].

Definition body (a : api) : list stmt :=
  match a with
  (* UnicycleGenerator.cpp:347-355, getLeftFootPrint, getRightFootPrint; unicyclePlanner (342-345) reads a pointer that
     never changes *)
  | GFootPointers => [Rd CFeet]
  | GFromFootPrints => from_foot_prints
  (* 458-469, generate *)
  | GGenerate => Hold MGen (Rd CFeet :: plan_steps) :: Rd CFeet :: from_foot_prints
  (* 471-546, the four reGenerate, with 246-320: getDCMInitialState returns a reference that is read after
     the DCM generator's mutex has been released; setPreviousSteps of the ZMP generator *)
  | GReGenerate =>
      Hold MGen ([Rd CFeet; Rd CSteps; Wr CSteps; Rd CPlugs; Hold MDcm []; Rd CDcmInit; Wr CSteps] ++ plan_steps ++
                 [Hold MZmp [Wr CZmp]])
      :: Rd CFeet :: from_foot_prints
  (* 550-574, setSwitchOverSwingRatio, setTerminalHalfSwitchTime *)
  | GSetTimes => [Hold MGen [Wr CTimes]]
  (* 576-579 setPauseActive, 665-668 disablePauseConditions *)
  | GSetPauseActive => [Wr CPause]
  (* 581-604 *)
  | GSetPauseConditions => [Hold MGen [Wr CTimes]]
  (* 606-632, both setMergePointRatio *)
  | GSetMergeRatio => [Wr CMerge]
  (* 634-663, getStepPhases, getFeetStandingPeriods, getWhenUseLeftAsFixed, getMergePoints *)
  | GGetPhases => [Hold MGen [Rd CPhases]]
  (* 670-724, the five add...Generator *)
  | GAddPlugin => [Hold MGen [Rd CPlugs; Wr CPlugs]]
  (* 726-734, calls UnicyclePlanner.cpp:1078-1086 *)
  | GSetNavigationPath => [Wr CNav]
  (* UnicyclePlanner.cpp:418-744 and 1000-1076: all setters (those deprecated call the new ones before locking,
     425-428, 464-467, 480-483, 496-499, 508-511); setMaximumIntegratorStepSize and the gains also touch the controllers *)
  | PSet => [Hold MPlan [Rd CPlan; Wr CPlan]]
  (* 746-979, on foot prints private to the caller, or on the generator's *)
  | PComputeNewSteps => [Hold MPlan [Rd CPlan; Wr CPlan; Rd CNav; Wr CNav; Wr CSwing]]
  | PComputeNewStepsShared => plan_steps
  (* 981-984, the constant overload *)
  | PStartWithLeft => [Rd CSwing]
  (* 986-998 *)
  | PGetPersonPosition => [Hold MPlan [Rd CPlan]]
  (* 1078-1086 *)
  | PSetNavigationPath => [Wr CNav]
  (* FeetCubicSplineGenerator.cpp:236-274 and 276-298, FeetMinimumJerkGenerator.cpp:309-347 and 349-371 *)
  | SplineSet => [Hold MSpline [Wr CSpline]]
  | SplineGet => [Hold MSpline [Rd CSpline]]
  | JerkSet => [Hold MJerk [Wr CJerk]]
  | JerkGet => [Hold MJerk [Rd CJerk]]
  (* ZMPTrajectoryGenerator.cpp:588-625 and 627-689 *)
  | ZSet => [Hold MZmp [Wr CZmp]]
  | ZGet => [Hold MZmp [Rd CZmp]]
  (* CoMHeightTrajectoryGenerator.cpp:117-135 and 137-156 *)
  | HSet => [Hold MCom [Wr CCom]]
  | HGet => [Hold MCom [Rd CCom]]
  (* DCMTrajectoryGenerator.cpp:122-129; 139-181; 131-137, a reference that the caller reads later;
     183-200 and 209-213, references again; 202-207 *)
  | DSetInitial => [Hold MDcm [Wr CDcmInit]]
  | DSet => [Hold MDcm [Wr CDcm]]
  | DGetInitial => [Hold MDcm []; Rd CDcmInit]
  | DGetReference => [Hold MDcm []; Rd CDcm]
  | DGetWeights => [Hold MDcm [Rd CDcm]]
  (* FootPrint.cpp: no mutex *)
  | FRead => [Rd CSteps]
  | FWrite => [Wr CSteps]
  end.

(** What a thread does to the shared world. *)
Inductive act : Type := ALock (m : mutex) | AUnlock (m : mutex) | ARd (c : cell) | AWr (c : cell).

(** The sequences of actions of a body.  Any statement may be skipped (branches) and the rest of a body may be abandoned
    (returns): every behaviour of the code is included, and more. *)
Inductive runs : list stmt -> list act -> Prop :=
| runs_end : forall b, runs b []
| runs_skip : forall s b t, runs b t -> runs (s :: b) t
| runs_rd : forall c b t, runs b t -> runs (Rd c :: b) (ARd c :: t)
| runs_wr : forall c b t, runs b t -> runs (Wr c :: b) (AWr c :: t)
| runs_hold : forall m b b' t t', runs b t -> runs b' t' -> runs (Hold m b :: b') (ALock m :: t ++ AUnlock m :: t').

(** A thread that makes the calls one after the other. *)
Inductive thread_of : list api -> list act -> Prop :=
| thread_nil : thread_of [] []
| thread_call : forall a p t u, runs (body a) t -> thread_of p u -> thread_of (a :: p) (t ++ u).

(** Any number of threads: who owns each mutex, and what every thread has still to do. *)
Record sys : Type := MkSys { owner : mutex -> option nat; todo : list (list act) }.
Definition enabled (o : mutex -> option nat) (i : nat) (a : act) : Prop :=
  match a with ALock m => o m = None | AUnlock m => o m = Some i | _ => True end.
Definition own_after (o : mutex -> option nat) (i : nat) (a : act) : mutex -> option nat :=
  match a with
  | ALock m => fun x => if mutex_eqb x m then Some i else o x
  | AUnlock m => fun x => if mutex_eqb x m then None else o x
  | _ => o
  end.
Fixpoint set_nth {A : Type} (i : nat) (x : A) (l : list A) : list A :=
  match l, i with
  | [], _ => []
  | _ :: r, O => x :: r
  | y :: r, S j => y :: set_nth j x r
  end.
(** One action of thread [i]. *)
Inductive move (i : nat) : sys -> sys -> Prop :=
| move_act : forall o ts a t, nth_error ts i = Some (a :: t) -> enabled o i a ->
    move i (MkSys o ts) (MkSys (own_after o i a) (set_nth i t ts)).
Inductive reach : sys -> sys -> Prop :=
| reach_refl : forall s, reach s s
| reach_step : forall s i s' s'', move i s s' -> reach s' s'' -> reach s s''.
Definition start (ts : list (list act)) : sys := MkSys (fun _ => None) ts.
