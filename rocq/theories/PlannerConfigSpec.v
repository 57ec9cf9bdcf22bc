(** Specification of the configuration interface: named settings, and what each call is meant to
    change. *)
From Coq Require Import Reals List Bool.
From Verif Require Import Prelude FootPrint UnicycleFoot Ellipse Optimization FootSpec Planner.
Import ListNotations.
Open Scope R_scope.

(** The settings; [LimX] is the bound tested by the feasibility check. *)
Inductive pname : Type :=
| NMinT | NMaxT | NNomT | NDT | NMinAngle | NWidth | NMaxLen | NMaxBack | NMinLen | NMaxAngle
| NTerm | NStart | NReset | NLeftYaw | NRightYaw | NLinFac | NAngFac | NCtrl | NMethod | NIntStep
| NNavStep | LimLen | LimBack | LimWidth | LimAngle | LimEll | NPosW | NTimeW.
Inductive pval : Type :=
| VR (r : R) | VB (b : bool) | VO (o : option R) | VE (e : ell) | VC (k : ctrl) | VM (m : fsmethod).

Definition pl_get (n : pname) (c : plcfg) : pval :=
  match n with
  | NMinT => VR (pl_minT c) | NMaxT => VR (pl_maxT c) | NNomT => VR (pl_nomT c) | NDT => VR (pl_dT c)
  | NMinAngle => VR (pl_minAngle c) | NWidth => VR (pl_nomWidth c) | NMaxLen => VR (pl_maxLen c)
  | NMaxBack => VR (pl_maxBack c) | NMinLen => VR (pl_minLen c) | NMaxAngle => VR (pl_maxAngle c)
  | NTerm => VB (pl_addTerm c) | NStart => VB (pl_startLeft c) | NReset => VB (pl_reset c)
  | NLeftYaw => VR (pl_leftYaw c) | NRightYaw => VR (pl_rightYaw c)
  | NLinFac => VR (pl_linFac c) | NAngFac => VR (pl_angFac c)
  | NCtrl => VC (pl_ctrl c) | NMethod => VM (pl_method c)
  | NIntStep => VR (pl_intStep c) | NNavStep => VR (pl_navStep c)
  | LimLen => VO (p_maxLen (pl_prob c)) | LimBack => VO (p_maxBack (pl_prob c))
  | LimWidth => VO (p_minWidth (pl_prob c)) | LimAngle => VO (p_maxAngle (pl_prob c))
  | LimEll => VE (p_ell (pl_prob c)) | NPosW => VR (p_posW (pl_prob c)) | NTimeW => VR (p_timeW (pl_prob c))
  end.

(** The settings a successful call is meant to give, with their values; everything else stays. *)
Definition meant (o : plop) (c : plcfg) : list (pname * pval) :=
  match o with
  | PlFactors lf af => [(NLinFac, VR lf); (NAngFac, VR af)]
  | PlIntStep d => [(NIntStep, VR d); (NNavStep, VR d)]
  | PlMaxLen1 ml => [(NMaxLen, VR ml); (LimLen, VO (Some ml)); (NMaxBack, VR ml); (LimBack, VO (Some ml))]
  | PlMaxLen2 ml k => [(NMaxLen, VR ml); (LimLen, VO (Some ml)); (NMaxBack, VR (ml * k)); (LimBack, VO (Some (ml * k)))]
  | PlMaxAngle a => [(NMaxAngle, VR a); (LimAngle, VO (Some a))]
  | PlWeights pw tw => [(NPosW, VR pw); (NTimeW, VR tw)]
  | PlTimings a b n => [(NMinT, VR a); (NMaxT, VR b); (NNomT, VR n)]
  | PlPeriod d => [(NDT, VR d)]
  | PlMinAngle a => [(NMinAngle, VR a)]
  | PlMinLen l => [(NMinLen, VR l)]
  | PlWidth a b => [(LimWidth, VO (Some a)); (NWidth, VR b)]
  | PlAddTerm b => [(NTerm, VB b)]
  | PlStartLeft b => [(NStart, VB b)]
  | PlReset b => [(NReset, VB b)]
  | PlLeftYaw y => [(NLeftYaw, VR y)]
  | PlRightYaw y => [(NRightYaw, VR y)]
  | PlController k => [(NCtrl, VC k)]
  | PlMethod m => [(NMethod, VM m); (LimEll, VE ell_clear)]
  | PlEll e => match pl_method c with FsReference => [] | _ => [(LimEll, VE e)] end
  end.

(** [c'] is [c] with exactly the settings [ch] changed. *)
Definition updated (ch : list (pname * pval)) (c c' : plcfg) : Prop :=
  (forall n v, In (n, v) ch -> pl_get n c' = v)
  /\ (forall n, (forall v, ~ In (n, v) ch) -> pl_get n c' = pl_get n c).

(** The arguments the documentation allows. *)
Definition allowed (o : plop) : Prop :=
  match o with
  | PlFactors lf af => 0 <= lf <= 1 /\ 0 <= af <= 1
  | PlIntStep d => 0 < d
  | PlMaxLen1 ml => 0 <= ml
  | PlMaxLen2 ml k => 0 <= ml /\ 0 <= k
  | PlMaxAngle a => 0 <= a
  | PlWeights pw tw => 0 <= pw /\ 0 <= tw
  | PlTimings a b n => 0 <= a /\ a <= n /\ n <= b
  | PlPeriod d => 0 <= d
  | PlMinAngle a => 0 <= a
  | PlMinLen l => 0 <= l
  | PlWidth a b => 0 <= a /\ a <= b
  | _ => True
  end.

(** Consistency of a configuration. *)
Record consistent (c : plcfg) : Prop := MkCons {
  cs_times : 0 <= pl_minT c /\ pl_minT c <= pl_nomT c /\ pl_nomT c <= pl_maxT c;
  cs_period : 0 <= pl_dT c;
  cs_width : exists w, p_minWidth (pl_prob c) = Some w /\ 0 <= w /\ w <= pl_nomWidth c;
  cs_len : 0 <= pl_maxLen c /\ p_maxLen (pl_prob c) = Some (pl_maxLen c);
  cs_back : 0 <= pl_maxBack c;
  cs_angle : 0 <= pl_maxAngle c /\ p_maxAngle (pl_prob c) = Some (pl_maxAngle c);
  cs_min : 0 <= pl_minLen c /\ 0 <= pl_minAngle c;
  cs_weights : 0 <= p_posW (pl_prob c) /\ 0 <= p_timeW (pl_prob c);
  cs_fac : 0 <= pl_linFac c <= 1 /\ 0 <= pl_angFac c <= 1;
  cs_steps : 0 < pl_intStep c /\ 0 < pl_navStep c
}.

(** A step respects the limits the planner reports: length below the maximum, backward length below
    the backward maximum, lateral distance above the minimum, heading change below the maximum, inside
    the free space. *)
Definition within_reported (c : plcfg) (minWidth : R) (sw : bool) (prev : step) (pos : vec2) (ang da : R) : Prop :=
  dist2d pos (st_pos prev) < pl_maxLen c
  /\ minWidth < (if sw then vdot (vsub pos (st_pos prev)) (leftward (st_angle prev))
                 else vdot (vsub (st_pos prev) pos) (leftward ang))
  /\ Rabs da < pl_maxAngle c
  /\ ell_inside (p_ell (pl_prob c)) pos = true
  /\ 0 < pl_maxBack c
  /\ (vdot (vsub pos (st_pos prev)) (heading (st_angle prev)) < 0 -> dist2d pos (st_pos prev) < pl_maxBack c).
