(** Specification vocabulary for settings and times that may be any double. *)
From Coq Require Import String Reals ZArith List Bool Sorting.Sorted Sorting.Permutation.
From Flocq Require Import Core IEEE754.BinarySingleNaN.
From Verif Require Import Prelude Rounding FootPrint UnicycleFoot Ellipse Optimization PlannerSearch Planner Controllers
  PersonFollowing FeetTraj CoMHeight DCM GenPhases RoundedGen RoundedGenSpec Doubles DoublesGen.
Import ListNotations.
Open Scope R_scope.

(** IEEE comparisons (false when an operand is NaN). *)
Definition le64 (x y : f64) : Prop := Bleb x y = true.
Definition lt64 (x y : f64) : Prop := Bltb x y = true.
Definition number (x : f64) : Prop := x <> fnan.
Definition f1 : f64 := fmake 1 0.
Definition fm1 : f64 := fmake (-1) 0.

(** The documented ranges of all settings; step height, CoM height and saturations are -1 until they are set. *)
Record valid (s : field -> f64) : Prop := MkValid {
  v_share : le64 fzero (s q_share) /\ le64 (s q_share) f1;
  v_terminal : lt64 fzero (s q_terminal);
  v_pause : lt64 fzero (s q_nomStep) /\ le64 (s q_nomStep) (s q_maxStep);
  v_merge : le64 fzero (s q_mergeB) /\ le64 (s q_mergeB) (s q_mergeE) /\ le64 (s q_mergeE) f1;
  v_height : s q_height = fm1 \/ le64 fzero (s q_height);
  v_apex : lt64 fzero (s q_apex) /\ lt64 (s q_apex) f1;
  v_free : number (s q_pitch) /\ number (s q_landing) /\ number (s q_alpha) /\ number (s q_still) /\ number (s q_distY)
           /\ number (s q_leftYaw) /\ number (s q_rightYaw) /\ number (s q_comDelta);
  v_com : s q_com = fm1 \/ (le64 fzero (s q_com) /\ ~ lt64 (fadd (s q_com) (s q_comDelta)) fzero);
  v_omega : le64 fzero (s q_omega);
  v_last : le64 fzero (s q_last) /\ le64 (s q_last) f1;
  v_sat : (s q_satLin = fm1 \/ le64 fzero (s q_satLin)) /\ (s q_satAng = fm1 \/ le64 fzero (s q_satAng));
  v_slow : le64 fzero (s q_turn) /\ le64 fzero (s q_back) /\ le64 fzero (s q_side);
  v_person : lt64 fzero (s q_gain) /\ number (s q_distX) /\ Beqb (s q_distX) fzero = false /\ le64 fzero (s q_cons);
  v_factors : le64 fzero (s q_linFac) /\ le64 (s q_linFac) f1 /\ le64 fzero (s q_angFac) /\ le64 (s q_angFac) f1;
  v_steps : lt64 fzero (s q_intStep) /\ lt64 fzero (s q_navStep);
  v_limits : le64 fzero (s q_maxLen) /\ le64 fzero (s q_maxBack) /\ le64 fzero (s q_maxAngle);
  v_weights : le64 fzero (s q_posW) /\ le64 fzero (s q_timeW);
  v_times : le64 fzero (s q_minT) /\ le64 (s q_minT) (s q_nomT) /\ le64 (s q_nomT) (s q_maxT);
  v_period : le64 fzero (s q_period);
  v_tiny : le64 fzero (s q_minAngle) /\ le64 fzero (s q_minLen);
  v_width : le64 fzero (s q_minWidth) /\ le64 (s q_minWidth) (s q_nomWidth)
}.

(** Calls that cannot store a NaN: no argument is NaN, the ratio is not infinite, and the backward length is not
    infinity times zero. *)
Definition tame (c : setter f64) : Prop :=
  (forall x, In x (args c) -> number x)
  /\ match c with sRatio r => r <> finf | sMaxLen2 l m => number (fmul l m) | _ => True end.

(** Finite arguments. *)
Definition finite_args (c : setter f64) : Prop := forall x, In x (args c) -> fin x = true.

(** The same call with other numbers. *)
Definition map_setter {M N : Type} (f : M -> N) (c : setter M) : setter N :=
  match c with
  | sRatio x => sRatio (f x) | sTerminal x => sTerminal (f x) | sPause x y => sPause (f x) (f y) | sMerge x y => sMerge (f x) (f y)
  | sHeight x => sHeight (f x) | sPitch x => sPitch (f x) | sApex x => sApex (f x) | sLanding x => sLanding (f x)
  | sCom x y => sCom (f x) (f y)
  | sOmega x => sOmega (f x) | sAlpha x => sAlpha (f x) | sStill x => sStill (f x) | sLast x => sLast (f x)
  | sSat x y => sSat (f x) (f y) | sTurn x => sTurn (f x) | sBack x => sBack (f x) | sSide x => sSide (f x)
  | sGain x => sGain (f x) | sDist x y => sDist (f x) (f y) | sCons x => sCons (f x)
  | sFactors x y => sFactors (f x) (f y) | sIntStep x => sIntStep (f x) | sMaxLen x => sMaxLen (f x)
  | sMaxLen2 x y => sMaxLen2 (f x) (f y) | sMaxAngle x => sMaxAngle (f x) | sWeights x y => sWeights (f x) (f y)
  | sTimings x y z => sTimings (f x) (f y) (f z) | sPeriod x => sPeriod (f x) | sMinAngle x => sMinAngle (f x)
  | sMinLen x => sMinLen (f x) | sWidth x y => sWidth (f x) (f y) | sLeftYaw x => sLeftYaw (f x) | sRightYaw x => sRightYaw (f x)
  end.

(** ** The exact models of the other files *)
(** All objects with settings. *)
Record objects : Type := MkObj {
  ob_gen : gset; ob_feet : feetcfg; ob_com : hcfg; ob_dcm : dcfg; ob_base : base; ob_pf : pf; ob_pl : plcfg }.
(** The settings of the objects. *)
Definition view (o : objects) (q : field) : R :=
  match q with
  | q_share => g_switchPct (ob_gen o) | q_terminal => g_endSwitch (ob_gen o) | q_maxStep => g_maxStep (ob_gen o)
  | q_nomStep => g_nomStep (ob_gen o) | q_mergeB => g_mrBegin (ob_gen o) | q_mergeE => g_mrEnd (ob_gen o)
  | q_height => f_height (ob_feet o) | q_pitch => f_pitch (ob_feet o) | q_apex => f_apex (ob_feet o) | q_landing => f_landing (ob_feet o)
  | q_com => h_nom (ob_com o) | q_comDelta => h_delta (ob_com o)
  | q_omega => dc_om (ob_dcm o) | q_alpha => dc_alpha (ob_dcm o) | q_still => dc_still (ob_dcm o) | q_last => dc_last (ob_dcm o)
  | q_satLin => b_maxLin (ob_base o) | q_satAng => b_maxAng (ob_base o) | q_turn => b_turn (ob_base o)
  | q_back => b_back (ob_base o) | q_side => b_side (ob_base o)
  | q_gain => k_gain (ob_pf o) | q_distX => vx (k_dist (ob_pf o)) | q_distY => vy (k_dist (ob_pf o)) | q_cons => k_cons (ob_pf o)
  | q_linFac => pl_linFac (ob_pl o) | q_angFac => pl_angFac (ob_pl o) | q_intStep => pl_intStep (ob_pl o) | q_navStep => pl_navStep (ob_pl o)
  | q_maxLen => pl_maxLen (ob_pl o) | q_maxBack => pl_maxBack (ob_pl o) | q_maxAngle => pl_maxAngle (ob_pl o)
  | q_posW => p_posW (pl_prob (ob_pl o)) | q_timeW => p_timeW (pl_prob (ob_pl o))
  | q_minT => pl_minT (ob_pl o) | q_maxT => pl_maxT (ob_pl o) | q_nomT => pl_nomT (ob_pl o) | q_period => pl_dT (ob_pl o)
  | q_minAngle => pl_minAngle (ob_pl o) | q_minLen => pl_minLen (ob_pl o)
  | q_minWidth => match p_minWidth (pl_prob (ob_pl o)) with Some w => w | None => 0 end
  | q_nomWidth => pl_nomWidth (ob_pl o) | q_leftYaw => pl_leftYaw (ob_pl o) | q_rightYaw => pl_rightYaw (ob_pl o)
  end.
Definition new_objects : objects := MkObj gset_new feet_new h_new dc_new base_new pf_new pl_new.
Definition with_gen (x : gset * bool) (o : objects) := (MkObj (fst x) (ob_feet o) (ob_com o) (ob_dcm o) (ob_base o) (ob_pf o) (ob_pl o), snd x).
Definition with_feet (x : feetcfg * bool) (o : objects) := (MkObj (ob_gen o) (fst x) (ob_com o) (ob_dcm o) (ob_base o) (ob_pf o) (ob_pl o), snd x).
Definition with_com (x : hcfg * bool) (o : objects) := (MkObj (ob_gen o) (ob_feet o) (fst x) (ob_dcm o) (ob_base o) (ob_pf o) (ob_pl o), snd x).
Definition with_dcm (x : dcfg * bool) (o : objects) := (MkObj (ob_gen o) (ob_feet o) (ob_com o) (fst x) (ob_base o) (ob_pf o) (ob_pl o), snd x).
Definition with_base (x : base * bool) (o : objects) := (MkObj (ob_gen o) (ob_feet o) (ob_com o) (ob_dcm o) (fst x) (ob_pf o) (ob_pl o), snd x).
Definition with_pf (x : pf * bool) (o : objects) := (MkObj (ob_gen o) (ob_feet o) (ob_com o) (ob_dcm o) (ob_base o) (fst x) (ob_pl o), snd x).
Definition with_pl (x : plcfg * bool) (o : objects) := (MkObj (ob_gen o) (ob_feet o) (ob_com o) (ob_dcm o) (ob_base o) (ob_pf o) (fst x), snd x).
(** The same call on the exact models. *)
Definition exact_call (c : setter R) (o : objects) : objects * bool :=
  match c with
  | sRatio r => with_gen (set_switchRatio r (ob_gen o)) o
  | sTerminal t => with_gen (set_terminalSwitch t (ob_gen o)) o
  | sPause m n => with_gen (set_pauseConditions m n (ob_gen o)) o
  | sMerge b e => with_gen (set_mergeRatio b e (ob_gen o)) o
  | sHeight h => with_feet (feet_call (ob_feet o) (FHeight h)) o
  | sPitch d => with_feet (feet_call (ob_feet o) (FPitch d)) o
  | sApex r => with_feet (feet_call (ob_feet o) (FApex r)) o
  | sLanding v => with_feet (feet_call (ob_feet o) (FLanding v)) o
  | sCom h d => with_com (h_set (ob_com o) h d) o
  | sOmega x => with_dcm (dc_call (ob_dcm o) (DOmega x)) o
  | sAlpha x => with_dcm (dc_call (ob_dcm o) (DAlpha x)) o
  | sStill x => with_dcm (dc_call (ob_dcm o) (DStill x)) o
  | sLast x => with_dcm (dc_call (ob_dcm o) (DLast x)) o
  | sSat l a => with_base (base_call (ob_base o) (BSat l a)) o
  | sTurn g => with_base (base_call (ob_base o) (BTurn g)) o
  | sBack g => with_base (base_call (ob_base o) (BBack g)) o
  | sSide g => with_base (base_call (ob_base o) (BSide g)) o
  | sGain g => with_pf (pf_setGain g (ob_pf o)) o
  | sDist x y => with_pf (pf_setDist x y (ob_pf o)) o
  | sCons c => with_pf (pf_setCons c (ob_pf o)) o
  | sFactors l a => with_pl (pl_call (ob_pl o) (PlFactors l a)) o
  | sIntStep d => with_pl (pl_call (ob_pl o) (PlIntStep d)) o
  | sMaxLen l => with_pl (pl_call (ob_pl o) (PlMaxLen1 l)) o
  | sMaxLen2 l m => with_pl (pl_call (ob_pl o) (PlMaxLen2 l m)) o
  | sMaxAngle a => with_pl (pl_call (ob_pl o) (PlMaxAngle a)) o
  | sWeights p t => with_pl (pl_call (ob_pl o) (PlWeights p t)) o
  | sTimings a b n => with_pl (pl_call (ob_pl o) (PlTimings a b n)) o
  | sPeriod d => with_pl (pl_call (ob_pl o) (PlPeriod d)) o
  | sMinAngle a => with_pl (pl_call (ob_pl o) (PlMinAngle a)) o
  | sMinLen l => with_pl (pl_call (ob_pl o) (PlMinLen l)) o
  | sWidth a b => with_pl (pl_call (ob_pl o) (PlWidth a b)) o
  | sLeftYaw y => with_pl (pl_call (ob_pl o) (PlLeftYaw y)) o
  | sRightYaw y => with_pl (pl_call (ob_pl o) (PlRightYaw y)) o
  end.

(** ** Foot prints *)
Definition map_nstep {M N : Type} (f : M -> N) (t : nstep M) : nstep N := MkN (n_left t) (n_idx t) (f (n_time t)) (n_name t).
Definition map_nfoot {M N : Type} (f : M -> N) (x : nfoot M) : nfoot N :=
  MkNF (map (fun s => (f (fst s), snd s)) (nf_steps x)) (nf_name x).
(** Times and names of the steps of the exact model. *)
Definition nfoot_of (x : footprint) : nfoot R := MkNF (map (fun s => (st_time s, st_name s)) (fp_steps x)) (fp_name x).
Definition nstep_of (t : tstep) : nstep R := MkN (t_left t) (t_idx t) (st_time (t_step t)) (st_name (t_step t)).
(** A foot print with the given times; the places of the steps do not matter here. *)
Definition foot_at (x : nfoot R) : footprint := MkFP (map (fun s => MkStep vzero 0 (fst s) (snd s)) (nf_steps x)) (nf_name x).
Definition step_at (t : nstep R) : tstep := MkT (n_left t) (n_idx t) (MkStep vzero 0 (n_time t) (n_name t)).
(** The settings of the generator. *)
Definition gset_of (s : field -> R) (pause : bool) : gset :=
  MkG (s q_share) (s q_terminal) (s q_maxStep) (s q_nomStep) pause (s q_mergeB) (s q_mergeE).

(** Doubles for which the phases are computed without overflow: [B] bounds the times, and there are at most 2^50
    samples. *)
Record in_scope (s : field -> f64) (left right : nfoot f64) (init dT : f64) (B : R) : Prop := MkScope {
  i_dT : fin dT = true /\ bpow radix2 (-900) <= f2r dT <= B;
  i_B : B <= bpow radix2 50 * f2r dT /\ B <= bpow radix2 900;
  i_init : fin init = true /\ Rabs (f2r init) <= B;
  i_times : forall x, In x (nf_steps left ++ nf_steps right) -> fin (fst x) = true /\ Rabs (f2r (fst x)) <= B;
  i_terminal : f2r (s q_terminal) <= B
}.

(** What std::sort requires of a comparison on the elements of a range: a strict weak order. *)
Definition strict_weak_order (lt : f64 -> f64 -> bool) (l : list f64) : Prop :=
  (forall x, In x l -> lt x x = false)
  /\ (forall x y z, In x l -> In y l -> In z l -> lt x y = true -> lt y z = true -> lt x z = true)
  /\ (forall x y z, In x l -> In y l -> In z l -> lt x y = false -> lt y x = false -> lt y z = false -> lt z y = false ->
      lt x z = false /\ lt z x = false).

(** The foot print and the steps with the values of the doubles; the positions play no role. *)
Definition real_foot (x : nfoot f64) : footprint := foot_at (map_nfoot f2r x).
Definition real_step (t : nstep f64) : tstep := step_at (map_nstep f2r t).
(** A result of std::sort. *)
Definition sorted64 (left right : nfoot f64) (srt : list (nstep f64)) : Prop :=
  Permutation srt (n_all (nf_steps left) (nf_steps right))
  /\ StronglySorted (fun a b => Bltb (n_time b) (n_time a) = false) srt.
(** A foot print after addStep with the times [ts]. *)
Definition built (ts : list f64) (name : string) : nfoot f64 :=
  fold_left (fun f t => fst (n_addStep ieee t f)) ts (MkNF [] name).
(** addStep accepts all of them. *)
Definition all_accepted (ts : list f64) : Prop := forall t f, In t ts -> snd (n_addStep ieee t f) = true.
