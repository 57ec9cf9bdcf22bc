(** Specification vocabulary: when planning succeeds and what a planned walk looks like to the generator. *)
From Coq Require Import String Reals ZArith List Bool.
From Verif Require Import Prelude FootPrint FootPrintSpec UnicycleFoot PlannerSearch PlannerSpec Planner GenPhases GenSpec FeetTraj CoMHeight DCM Generator GeneratorSpec.
Import ListNotations.
Open Scope R_scope.

(** What a planning call needs: limits that leave room for the nominal width, accepted saturations, a horizon, and either
    no step at all (then a person to follow must have a reference) or a landed last step of each foot. *)
Record can_plan (c : plcfg) (e : planenv) (init tend : R) (ls rs : list step) : Prop := MkCan {
  cn_len : pl_nomWidth c <= pl_maxLen c;
  cn_back : pl_nomWidth c <= pl_maxBack c;
  cn_angle : pl_minAngle c < pl_maxAngle c;
  cn_sat : v_satOk e = true;
  cn_init : 0 <= init;
  cn_end : init < tend;
  cn_steps : (ls = [] /\ rs = [] /\ (pl_ctrl c = CPerson -> v_point e <> None))
             \/ (ls <> [] /\ rs <> [] /\ last_before init ls /\ last_before init rs)
}.

(** No step at all, or one step of each foot: what the generator hands to the planner. *)
Definition fresh (ls rs : list step) : Prop := (ls = [] /\ rs = []) \/ (exists a b, ls = [a] /\ rs = [b]).
(** Time between [init] and the first planned step that the planner guarantees: the nominal step time if the feet start
    together, otherwise what is left of the minimum step time. *)
Definition guaranteed_lead (c : plcfg) (init : R) (ls rs : list step) (lead : R) : Prop :=
  match ls, rs with
  | a :: _, b :: _ => lead <= pl_nomT c /\ (st_time a <> st_time b -> lead <= pl_minT c - (init - Rmax (st_time a) (st_time b)))
  | _, _ => lead <= pl_nomT c
  end.

(** [plan] is what computeNewSteps of a planner with configuration [c] does in the environment [e]: true with the new
    steps, or false; foot prints left behind by a failure are arbitrary.  A foot print never holds a negative time (C02). *)
Definition plans (c : plcfg) (e : planenv) (plan : footprint -> footprint -> R -> R -> footprint * footprint * bool) : Prop :=
  forall l r i t, nonneg_times (fp_steps l) -> nonneg_times (fp_steps r) ->
    (exists fuel lf rf sw sl, compute_new_steps c e fuel l r i t = PDone lf rf sw sl /\ plan l r i t = (ft_fp lf, ft_fp rf, true))
    \/ ((forall fuel lf rf sw sl, compute_new_steps c e fuel l r i t <> PDone lf rf sw sl) /\ snd (plan l r i t) = false).

(** Number of iterations of the search for a horizon of [n] planner periods, and the planner as a function. *)
Definition iterations (c : plcfg) (init tend : R) : nat :=
  let n := Z.to_nat (up ((tend - init) / pl_dT c)) in (n * (n + 2) + n + 2)%nat.
Definition planner (c : plcfg) (e : planenv) (l r : footprint) (init tend : R) : footprint * footprint * bool :=
  match compute_new_steps c e (iterations c init tend) l r init tend with
  | PDone lf rf _ _ => (ft_fp lf, ft_fp rf, true)
  | _ => (l, r, false)
  end.

(** ** Trajectories for a plan *)
(** Every phase of a walk that starts at least [lead] after the initial time and whose impacts are at least [gap] apart
    is longer than the sampling time. *)
Definition sampled_finely (s : gset) (dT lead gap : R) : Prop :=
  let p := Rmin (g_switchPct s) (1 - g_switchPct s) in
  dT <= p * g_nomStep s /\ dT <= p * (gap - dT / 2) /\ dT <= p * lead.
(** The attached plug-ins have been configured: step height, CoM height; the DCM plug-in has a positive omega, and its
    pieces of the double supports are longer than the sampling time. *)
Record plugins_ready (dT : R) (g : gen) : Prop := MkReady {
  pr_feet : forall c, gn_feet g = Some c -> 0 <= f_height c;
  pr_cub : forall c, gn_cub g = Some c -> 0 <= f_height c;
  pr_com : forall c, gn_com g = Some c -> 0 <= h_nom c;
  pr_dcm : forall d, gn_dcm g = Some d -> let s := gn_set g in
           0 < dc_om (dm_cfg d) /\ 0 <= dc_still (dm_cfg d) < 1 /\ dT <= (1 - dc_still (dm_cfg d)) * (g_endSwitch s - dT / 2)
           /\ (g_pause s = true -> dT <= g_endSwitch s /\ dT <= g_switchPct s * g_nomStep s
               /\ g_endSwitch s + g_switchPct s * g_nomStep s + dT <= g_switchPct s * g_maxStep s)
}.
Definition bare (g : gen) : Prop := gn_cub g = None /\ gn_feet g = None /\ gn_zmp g = None /\ gn_dcm g = None /\ gn_com g = None.
(** A sampling time that suits the settings, the attached plug-ins and the walks to expect. *)
Definition suits (dT lead gap : R) (g : gen) : Prop :=
  0 < dT /\ dT <= 2 * g_endSwitch (gn_set g) /\ dT / 2 <= gap
  /\ (bare g \/ sampled_finely (gn_set g) dT lead gap /\ plugins_ready dT g).

(** ** A user who plans, and re-plans while walking *)
(** A configured planner in a working environment: limits with room for the nominal width, positive period and step
    times, an integrator that succeeds. *)
Record working (c : plcfg) (e : planenv) : Prop := MkWorking {
  wk_cfg : exists ops, c = pl_history ops;
  wk_dT : 0 < pl_dT c; wk_minT : 0 < pl_minT c;
  wk_len : pl_nomWidth c <= pl_maxLen c; wk_back : pl_nomWidth c <= pl_maxBack c; wk_angle : pl_minAngle c < pl_maxAngle c;
  wk_sat : v_satOk e = true; wk_integ : forall u, v_integ e u <> None;
  wk_point : pl_ctrl c = CPerson -> v_point e <> None
}.
(** The time of the previous call (none before the first), the state, the calls to come. *)
Section Use.
Variable spl : R -> R -> R -> R -> R -> R -> pva.
Variable hspl : R -> R -> R -> R -> pva.
Variable fspl : swing_splines.
Inductive well_used : option R -> gen -> list call -> Prop :=
| WNil : forall last g, well_used last g []
| WCfg : forall last g ev cs, well_used last (gn_call g ev) cs -> well_used last g (KCfg ev :: cs)
| WGen : forall g c e plan init dT tend srt cs, working c e -> plans c e plan -> 0 <= init < tend ->
    suits dT (pl_nomT c) (pl_minT c) g ->
    (forall l r, plan (gn_left g) (gn_right g) init tend = (l, r, true) -> sort_result (fp_steps l) (fp_steps r) srt) ->
    well_used (Some init) (fst (perform spl hspl fspl g (KGen plan init dT tend srt))) cs ->
    well_used None g (KGen plan init dT tend srt :: cs)
| WRe : forall last g c e plan garbage init dT tend mL mR k srt lead cs, working c e -> plans c e plan -> last <= init < tend ->
    (corr_left k = true -> 0 <= st_time mL) -> (corr_right k = true -> 0 <= st_time mR) ->
    suits dT lead (pl_minT c) g ->
    (forall pl pr l1 r1, present (gn_left g) init pl -> present (gn_right g) init pr ->
       handed g init mL mR k (should_reset garbage g) pl pr l1 r1 -> bare g \/ guaranteed_lead c init (fp_steps l1) (fp_steps r1) lead) ->
    (forall g', replan plan garbage g init tend mL mR k = (g', true) -> sort_result (fp_steps (gn_left g')) (fp_steps (gn_right g')) srt) ->
    well_used (Some init) (fst (perform spl hspl fspl g (KRe plan garbage init dT tend mL mR k srt))) cs ->
    well_used (Some last) g (KRe plan garbage init dT tend mL mR k srt :: cs).
End Use.
