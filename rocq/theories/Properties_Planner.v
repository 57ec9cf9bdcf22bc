(** Properties C07 and C26-C32: configuration of the planner and planning of steps. *)
From Coq Require Import Reals Lra Lia String List Bool.
From Verif Require Import Prelude EvalTac FootPrint FootPrintSpec FootPrintProofs UnicycleFoot Ellipse Optimization PlannerSearch Planner FootSpec PlannerSpec
  PlannerConfigSpec PlannerProofs PlannerProofs2 PlannerProofs3 PlannerProofs4 PlannerProofs5 PlannerDemo.
Import ListNotations.
Open Scope R_scope.

(** ** C07: limit and weight setters either take effect or change nothing *)
Theorem C07_accepted_setter_takes_effect : forall c o c',
  pl_call c o = (c', true) -> updated (meant o c) c c'.
Proof. exact call_true. Qed.
Print Assumptions C07_accepted_setter_takes_effect.

Theorem C07_accepted_iff_allowed : forall c o, snd (pl_call c o) = true <-> allowed o.
Proof. exact call_accepts. Qed.
Print Assumptions C07_accepted_iff_allowed.

(** Missing from the full property: the two setters refuted below. *)
Theorem C07_refused_setter_changes_nothing_partial : forall c o c',
  (forall a b, o <> PlWeights a b) -> (forall d, o <> PlIntStep d) ->
  pl_call c o = (c', false) -> c' = c.
Proof.
  intros c o c' H1 H2 H. apply (call_false c o c'); auto. destruct o; try reflexivity; exfalso; [apply (H2 dT)|apply (H1 pw tw)]; reflexivity.
Qed.
Print Assumptions C07_refused_setter_changes_nothing_partial.

(** setCostWeights(7, -1) returns false and has changed the position weight. *)
Theorem C07_refused_weights_change_refuted : exists c',
  pl_call pl_new (PlWeights 7 (-1)) = (c', false) /\ pl_get NPosW c' = VR 7 /\ pl_get NPosW pl_new = VR 1.
Proof.
  eexists. split; [|split].
  - unfold pl_call, pl_setWeights, prob_setWeights, prob_setPosW, prob_setTimeW. repeat ev1. reflexivity.
  - reflexivity.
  - rewrite new_explicit. reflexivity.
Qed.
Print Assumptions C07_refused_weights_change_refuted.

(** setMaximumIntegratorStepSize(-3) returns false and has changed the step of the navigation
    controller. *)
Theorem C07_refused_integrator_step_change_refuted : exists c',
  pl_call pl_new (PlIntStep (-3)) = (c', false) /\ pl_get NNavStep c' = VR 3 /\ pl_get NIntStep c' = VR (1/100).
Proof.
  eexists. split; [|split].
  - unfold pl_call, pl_setIntStep. repeat ev1. reflexivity.
  - cbn. rewrite Rabs_left by lra. f_equal. lra.
  - rewrite new_explicit. reflexivity.
Qed.
Print Assumptions C07_refused_integrator_step_change_refuted.

Example C07_example : pl_call pl_new (PlTimings 1 3 2) = (pl_withTimes 1 3 2 (1/100) pl_new, true)
  /\ pl_call pl_new (PlTimings 1 3 4) = (pl_new, false).
Proof. unfold pl_call, pl_setTimings, Rgtb. repeat ev1. split; reflexivity. Qed.

(** ** C26: planned steps are admissible *)
Lemma history_good : forall ops, good_cfg (pl_history ops).
Proof. intros ops. destruct (history_inv ops) as [[(A & B & C) D _ _ _ _ _ _ _ _] _]. constructor; auto. Qed.

(** Steps of the search: on the sampled pose and within every limit, or parallel to the stance foot;
    in both cases late enough and inside the horizon.  The first terminal step is within the limits
    too.  Missing from the full property: the second terminal step is not checked and terminal steps
    can be after the horizon (refuted below); a parallel step is not checked. *)
Theorem C26_planned_steps_admissible_partial : forall ops e fuel lfp rfp init tend l' r' sw' sl',
  let c := pl_history ops in
  nonneg_times (fp_steps lfp) -> nonneg_times (fp_steps rfp) ->
  compute_new_steps c e fuel lfp rfp init tend = PDone l' r' sw' sl' ->
  exists (ls0 rs0 : list step) (sw0 : bool) (prev0 : step) (sol : R -> ustate) (adds term : list step),
    starts_from (geom_pl c) init (fp_steps lfp) (fp_steps rfp) ls0 rs0
    /\ (exists u0, v_integ e u0 = Some sol)
    /\ last_opt (if sw0 then rs0 else ls0) = Some prev0
    /\ (adds ++ term <> [] ->
        fsteps l' = ls0 ++ fst (deal sw0 (adds ++ term)) /\ fsteps r' = rs0 ++ snd (deal sw0 (adds ++ term)))
    /\ chain (fun sw prev x =>
         (admissible_at (pl_prob c) (geom_pl c) (sol (st_time x)) sw prev x \/ parallel_to (geom_pl c) (negb sw) prev sw x)
         /\ pl_minT c <= st_time x - st_time prev /\ init < st_time x <= tend) sw0 prev0 adds
    /\ terminal_placement (pl_prob c) (geom_pl c) (sol tend) (turn sw0 (List.length adds)) (List.last adds prev0) term.
Proof.
  intros ops e fuel lfp rfp init tend l' r' sw' sl' c Nl Nr H.
  destruct (plan_spec _ _ _ _ _ _ _ _ _ _ _ (history_good ops) Nl Nr H)
    as (ls0 & rs0 & sw0 & prev0 & sol & adds & term & A1 & A2 & A3 & A4 & A5 & A6 & A7 & A8 & A9 & A10 & A11 & A12 & A13).
  exists ls0, rs0, sw0, prev0, sol, adds, term. split; [exact A1|]. split; [exact A2|]. split; [exact A3|].
  split; [intros Hne; destruct A13 as [(_ & _ & ?)|(? & _)]; [assumption|contradiction]|].
  split; [|exact A9].
  eapply chain_impl; [|exact A8]. intros sw a b (P1 & P2 & P3 & P4 & P5). auto.
Qed.
Print Assumptions C26_planned_steps_admissible_partial.

(** The second terminal step leaves the free space and both are after the horizon (1 s). *)
Theorem C26_terminal_step_unchecked_refuted : exists ops e l' r' sw' sl' x,
  compute_new_steps (pl_history ops) e 5 fp_new fp_new 0 1 = PDone l' r' sw' sl'
  /\ In x (fsteps r') /\ e_set (p_ell (pl_prob (pl_history ops))) = true
  /\ ell_inside (p_ell (pl_prob (pl_history ops))) (st_pos x) = false
  /\ st_time x > 1 /\ forall y, In y (fsteps l') -> st_time y <= 0 \/ st_time y > 1.
Proof.
  exists demo_ops, denv, (lfoot L1), (rfoot R1), true, true, (MkStep (V2 1 (-1)) 0 8 nm).
  rewrite demo_cfg_ok. split; [exact demo_run|]. split; [simpl; auto|]. split; [reflexivity|]. split.
  - unfold ell_inside. cbn [demo_cfg pl_prob demo_prob p_ell disc e_set negb].
    unfold vnorm, vnorm2, ell_gen, mapply. cbv beta iota delta [disc vx vy e_Ci e_d m00 m01 m10 m11 vsub st_pos]. repeat ev1. reflexivity.
  - split; [simpl; lra|]. simpl. intros y [<-|[<-|[]]]; simpl; lra.
Qed.
Print Assumptions C26_terminal_step_unchecked_refuted.

(** A walk with two searched and two terminal steps meets the hypotheses. *)
Example C26_example : compute_new_steps (pl_history walk_ops) denv 9 fp_new fp_new 0 3 = PDone (lfoot Lw) (rfoot Rw) true true
  /\ nonneg_times (fp_steps fp_new) /\ List.length (fp_steps Lw) = 3%nat.
Proof. rewrite walk_cfg_ok. split; [exact walk_run|]. split; [constructor|reflexivity]. Qed.

(** ** C27: alternation and impact times *)
Lemma chain_later_all : forall adds sw prev b, chain later sw prev adds -> st_time b <= st_time prev -> forall x, In x adds -> st_time b < st_time x.
Proof.
  induction adds as [|y adds IH]; intros sw prev b H Hb x Hx; [contradiction|]. destruct H as [H1 H2]. unfold later in H1.
  destruct Hx as [<-|Hx]; [lra|]. eapply (IH (negb sw) y); eauto. lra.
Qed.

Theorem C27_steps_alternate_and_times_increase_partial : forall ops e fuel lfp rfp init tend l' r' sw' sl',
  let c := pl_history ops in
  0 < pl_nomT c -> nonneg_times (fp_steps lfp) -> nonneg_times (fp_steps rfp) ->
  compute_new_steps c e fuel lfp rfp init tend = PDone l' r' sw' sl' ->
  exists (ls0 rs0 : list step) (sw0 : bool) (prev0 : step) (adds : list step),
    starts_from (geom_pl c) init (fp_steps lfp) (fp_steps rfp) ls0 rs0
    /\ last_opt (if sw0 then rs0 else ls0) = Some prev0
    /\ chain later sw0 prev0 adds
    /\ (forall x b, In x adds -> last_opt ls0 = Some b \/ last_opt rs0 = Some b -> st_time b < st_time x)
    /\ (adds <> [] -> fsteps l' = ls0 ++ fst (deal sw0 adds) /\ fsteps r' = rs0 ++ snd (deal sw0 adds)).
Proof.
  intros ops e fuel lfp rfp init tend l' r' sw' sl' c Hnom Nl Nr H.
  destruct (plan_spec _ _ _ _ _ _ _ _ _ _ _ (history_good ops) Nl Nr H)
    as (ls0 & rs0 & sw0 & prev0 & sol & adds & term & A1 & A2 & A3 & A4 & A5 & A6 & A7 & A8 & A9 & A10 & A11 & A12 & A13).
  exists ls0, rs0, sw0, prev0, (adds ++ term). split; [exact A1|]. split; [exact A3|].
  assert (C1 : chain (fun sw a b => st_time a < st_time b /\ init < st_time b) sw0 prev0 (adds ++ term)).
  { apply chain_app2. split.
    - eapply chain_impl; [|exact A8]. intros sw a b (P1 & P2 & P3 & P4 & P5). auto.
    - eapply chain_impl; [|exact A10]. unfold nominal_after. intros sw a b P. pose proof (Rmax_l init (st_time a)); pose proof (Rmax_r init (st_time a)).
      fold c in P. lra. }
  split; [eapply chain_impl; [|exact C1]; intros sw a b [P _]; exact P|].
  split.
  - intros x b Hx Hb.
    assert (Hall : forall l sw p, chain (fun sw a b => st_time a < st_time b /\ init < st_time b) sw p l -> In x l -> init < st_time x).
    { induction l as [|y l IH]; intros sw p HC Hi; [contradiction|]. destruct HC as [[_ P] HC]. destruct Hi as [<-|Hi]; [exact P|eapply IH; eauto]. }
    specialize (Hall _ _ _ C1 Hx). destruct Hb as [Hb|Hb]; [apply A4 in Hb|apply A5 in Hb]; lra.
  - intros Hne. destruct A13 as [(_ & _ & ?)|(? & _)]; [assumption|contradiction].
Qed.
Print Assumptions C27_steps_alternate_and_times_increase_partial.

(** With the accepted nominal step time 0 the terminal steps have the impact time of the steps already
    present. *)
Theorem C27_zero_nominal_time_refuted : exists ops e l' r' sw' sl' a b,
  compute_new_steps (pl_history ops) e 9 fp_new fp_new 0 1 = PDone l' r' sw' sl'
  /\ fsteps l' = [a; b] /\ st_pos a <> st_pos b /\ st_time a = st_time b.
Proof.
  exists nom_ops, denv, (lfoot Ln), (rfoot Rn), true, true. do 2 eexists. rewrite nom_cfg_ok. split; [exact nom_run|].
  split; [reflexivity|]. simpl. split; [|reflexivity]. intros E. injection E as E. lra.
Qed.
Print Assumptions C27_zero_nominal_time_refuted.

Example C27_example : 0 < pl_nomT (pl_history walk_ops)
  /\ compute_new_steps (pl_history walk_ops) denv 9 fp_new fp_new 0 3 = PDone (lfoot Lw) (rfoot Rw) true true.
Proof. rewrite walk_cfg_ok. split; [simpl; lra|exact walk_run]. Qed.

(** ** C28: the chosen landing time minimises the cost *)
(** The state in which the main loop of computeNewSteps starts. *)
Definition search_start (c : scfg) (l r : foot) (sw first : bool) (prev : step) : sst :=
  MkS l r sw first (g_init c) (-1) (10 ^ 10) (g_init c - st_time prev) (if first then g_nomT c else 0) prev.

(** A finished search has a sequence of loop states. *)
Theorem C28_search_has_trace : forall c fuel addTerm reset l r (sw : bool) first sl l' r' sw' sl' prev,
  ft_getLast (if sw then r else l) = Some prev ->
  search_steps c fuel addTerm reset l r sw first sl = PDone l' r' sw' sl' ->
  exists (st : nat -> sst) (N : nat), st O = search_start c l r sw first prev /\ g_end c < s_t (st N)
    /\ forall i, (i < N)%nat -> s_t (st i) <= g_end c /\ iter1 c (st i) = Ok (st (S i)).
Proof.
  intros c fuel addTerm reset l r sw first sl l' r' sw' sl' prev Hp H. unfold search_steps in H. rewrite Hp in H. cbv zeta in H.
  destruct (run_loop _ _ _) as [s| |] eqn:E; try discriminate.
  destruct (run_loop_trace _ _ _ _ E) as (st & N & A & B & C & D). exists st, N. rewrite B. auto.
Qed.
Print Assumptions C28_search_has_trace.

(** Between two placements (iterations [m] to [n]) every sample is examined; the step placed at
    iteration [n] is the examined sample of least cost, or, when none was feasible, a step parallel
    to the stance foot. *)
Theorem C28_landing_minimises_cost : forall c l r (sw : bool) first prev (st : nat -> sst) m n,
  0 < g_dT c -> 0 <= g_init c -> g_init c < g_end c -> 0 <= g_nomT c ->
  ft_getLast (if sw then r else l) = Some prev -> st_time prev <= g_init c ->
  st O = search_start c l r sw first prev ->
  (forall i, (i <= n)%nat -> s_t (st i) <= g_end c /\ iter1 c (st i) = Ok (st (S i))) ->
  (m <= n)%nat -> (m = O \/ exists m', m = S m' /\ ~ same_feet (st m') (st m)) ->
  (forall i, (m <= i < n)%nat -> same_feet (st i) (st (S i))) -> ~ same_feet (st n) (st (S n)) ->
  exists x, fsteps (if s_swingLeft (st n) then s_left (st (S n)) else s_right (st (S n))) = fsteps (swingOf (st n)) ++ [x]
    /\ fsteps (if s_swingLeft (st n) then s_right (st (S n)) else s_left (st (S n))) = fsteps (stanceOf (st n))
    /\ ((exists i cost, (m <= i < n)%nat /\ candidate c (geom_of l r) (st i) cost
            /\ (forall j cost', (m <= j < n)%nat -> candidate c (geom_of l r) (st j) cost' -> cost <= cost')
            /\ st_time x = s_t (st i)
            /\ stands_at (geom_of l r) (s_swingLeft (st n)) (g_sol c (st_time x)) x)
        \/ ((forall j cost', (m <= j < n)%nat -> ~ candidate c (geom_of l r) (st j) cost')
            /\ st_time x = s_t (st n)
            /\ parallel_to (geom_of l r) (negb (s_swingLeft (st n))) (s_prev (st n)) (s_swingLeft (st n)) x)).
Proof.
  intros c l r sw first prev st m n H1 H2 H3 H3' H6 H7 H8 H9 H10 H11 H12 H13.
  apply (landing_chosen c l r sw prev H1 H2); auto.
  - rewrite H8. unfold search_start. split; [constructor|]; simpl; rewrite ?app_nil_r; auto; try (unfold same_params; tauto); try lra.
    all: try (destruct first; lra); try (left; lra).
  - rewrite H8. simpl. lra.
Qed.
Print Assumptions C28_landing_minimises_cost.

Example C28_example : (forall i, (i <= 3)%nat -> s_t (walk_states i) <= g_end wcfg /\ iter1 wcfg (walk_states i) = Ok (walk_states (S i)))
  /\ (forall i, (0 <= i < 3)%nat -> same_feet (walk_states i) (walk_states (S i)))
  /\ ~ same_feet (walk_states 3) (walk_states 4)
  /\ walk_states 0 = search_start wcfg (lfoot L0) (rfoot R0) true true prevR.
Proof.
  split; [|split; [|split]].
  - intros i Hi. destruct i as [|[|[|[|i]]]]; [| | | |lia]; (split; [simpl; lra|]); simpl; [apply walk0|apply walk1|apply walk2|apply walk3].
  - intros i Hi. destruct i as [|[|[|i]]]; [| | |lia]; split; reflexivity.
  - intros [E _]. discriminate E.
  - unfold search_start. simpl. unfold w_at. f_equal. simpl. lra.
Qed.

(** ** C29: planning terminates *)
Theorem C29_planning_terminates_partial : forall ops e lfp rfp init tend,
  let c := pl_history ops in
  0 < pl_dT c -> nonneg_times (fp_steps lfp) -> nonneg_times (fp_steps rfp) ->
  exists fuel0, forall fuel, (fuel0 <= fuel)%nat -> compute_new_steps c e fuel lfp rfp init tend <> PFuel.
Proof.
  intros ops e lfp rfp init tend c HdT Nl Nr. pose proof (history_good ops) as [G1 G2 G3 G4]. fold c in G1, G2, G3, G4.
  unfold compute_new_steps.
  destruct (Rgtb _ _); [exists O; discriminate|]. destruct (Rgtb _ _); [exists O; discriminate|]. destruct (Rgeb _ _); [exists O; discriminate|].
  destruct (negb _); [exists O; discriminate|].
  destruct (init_planner c e init tend lfp rfp) as [[i sol]|] eqn:Ei; [|exists O; discriminate].
  destruct (ft_getLast (stance_of (i_swingLeft i) (i_left i) (i_right i))) as [prev0|] eqn:Ep.
  - destruct (init_facts _ _ _ _ _ _ _ _ _ Nl Nr Ei Ep) as (F1 & F2 & _).
    apply search_terminates; simpl; lra.
  - exists O. intros fuel _. unfold search_steps. unfold stance_of in Ep. rewrite Ep. discriminate.
Qed.
Print Assumptions C29_planning_terminates_partial.

(** Period 0 is accepted; then no number of iterations is enough. *)
Theorem C29_zero_period_never_returns_refuted : exists ops e lfp rfp init tend,
  snd (pl_call pl_new (PlPeriod 0)) = true /\ In (PlPeriod 0) ops /\
  forall fuel, compute_new_steps (pl_history ops) e fuel lfp rfp init tend = PFuel.
Proof.
  exists zero_ops, denv, fp_new, fp_new, 0, 3. split; [unfold pl_call, pl_setPeriod; ev1; reflexivity|].
  split; [simpl; auto|exact zero_run].
Qed.
Print Assumptions C29_zero_period_never_returns_refuted.

Example C29_example : 0 < pl_dT (pl_history walk_ops).
Proof. rewrite walk_cfg_ok. simpl. lra. Qed.

(** ** C30: terminal step *)
Theorem C30_terminal_step_ends_parallel : forall ops e fuel lfp rfp init tend l' r' sw' sl',
  let c := pl_history ops in
  pl_addTerm c = true -> nonneg_times (fp_steps lfp) -> nonneg_times (fp_steps rfp) ->
  compute_new_steps c e fuel lfp rfp init tend = PDone l' r' sw' sl' ->
  exists a b, last_opt (fsteps l') = Some a /\ last_opt (fsteps r') = Some b
    /\ feet_parallel (geom_pl c) (pl_minLen c) (pl_minAngle c) a b.
Proof.
  intros ops e fuel lfp rfp init tend l' r' sw' sl' c Ht Nl Nr H.
  destruct (plan_spec _ _ _ _ _ _ _ _ _ _ _ (history_good ops) Nl Nr H)
    as (ls0 & rs0 & sw0 & prev0 & sol & adds & term & A1 & A2 & A3 & A4 & A5 & A6 & A7 & A8 & A9 & A10 & A11 & A12 & A13).
  exact (A12 Ht).
Qed.
Print Assumptions C30_terminal_step_ends_parallel.

Example C30_example : pl_addTerm (pl_history walk_ops) = true
  /\ compute_new_steps (pl_history walk_ops) denv 9 fp_new fp_new 0 3 = PDone (lfoot Lw) (rfoot Rw) true true
  /\ compute_new_steps (pl_history walk_ops) senv 5 L0 Rlate 1 2 = PDone (lfoot Lsync) (rfoot Rlate) true true.
Proof. rewrite walk_cfg_ok. split; [reflexivity|]. split; [exact walk_run|exact still_run]. Qed.

(** ** C31: standing still *)
(** When the number of steps is unchanged from the start of the search the feet are synchronised. *)
Theorem C31_standing_still_synchronises : forall ops e fuel lfp rfp init tend l' r' sw' sl',
  let c := pl_history ops in
  nonneg_times (fp_steps lfp) -> nonneg_times (fp_steps rfp) ->
  compute_new_steps c e fuel lfp rfp init tend = PDone l' r' sw' sl' ->
  exists (ls0 rs0 : list step), starts_from (geom_pl c) init (fp_steps lfp) (fp_steps rfp) ls0 rs0
    /\ (List.length (fsteps l') = List.length ls0 -> List.length (fsteps r') = List.length rs0 ->
        synchronised ls0 rs0 (fsteps l') (fsteps r') (pl_reset c) (pl_startLeft c) sl').
Proof.
  intros ops e fuel lfp rfp init tend l' r' sw' sl' c Nl Nr H.
  destruct (plan_spec _ _ _ _ _ _ _ _ _ _ _ (history_good ops) Nl Nr H)
    as (ls0 & rs0 & sw0 & prev0 & sol & adds & term & A1 & A2 & A3 & A4 & A5 & A6 & A7 & A8 & A9 & A10 & A11 & A12 & A13).
  exists ls0, rs0. split; [exact A1|]. intros L1' L2'.
  destruct A13 as [(Hne & _ & E1 & E2)|(_ & Hs)]; [|exact Hs].
  exfalso. apply Hne. rewrite E1, app_length in L1'. rewrite E2, app_length in L2'.
  pose proof (deal_length (adds ++ term) sw0) as HD. destruct (adds ++ term); [reflexivity|]. simpl List.length in HD. simpl in L1', L2', HD. lia.
Qed.
Print Assumptions C31_standing_still_synchronises.

(** With a stored step for one foot only and no terminal step the synchronisation reads an
    uninitialised step. *)
Theorem C31_one_empty_foot_refuted : exists ops e lfp rfp init tend,
  nonneg_times (fp_steps lfp) /\ nonneg_times (fp_steps rfp)
  /\ compute_new_steps (pl_history ops) e 5 lfp rfp init tend = PUB.
Proof.
  exists noterm_ops, senv, fp_new, R0, 0, (1/2). split; [constructor|]. split; [|exact lone_run].
  constructor; [simpl; lra|constructor].
Qed.
Print Assumptions C31_one_empty_foot_refuted.

Example C31_example : compute_new_steps (pl_history walk_ops) senv 5 L0 Rlate 1 2 = PDone (lfoot Lsync) (rfoot Rlate) true true
  /\ nonneg_times (fp_steps L0) /\ nonneg_times (fp_steps Rlate)
  /\ map st_time (fp_steps L0) = [0] /\ map st_time (fp_steps Rlate) = [1] /\ map st_time (fp_steps Lsync) = [1].
Proof.
  rewrite walk_cfg_ok. split; [exact still_run|]. split; [|split]; [constructor; [simpl; lra|constructor]|constructor; [simpl; lra|constructor]|repeat split].
Qed.

(** ** C32: configuration invariants *)
Theorem C32_configuration_invariants : forall ops, consistent (pl_history ops).
Proof. intros ops. apply (history_inv ops). Qed.
Print Assumptions C32_configuration_invariants.

Theorem C32_enforced_limits_are_the_reported_ones : forall ops,
  let c := pl_history ops in
  exists w, p_minWidth (pl_prob c) = Some w /\ forall sw prev pos ang da,
    admissible (pl_prob c) sw prev pos ang da <-> within_reported c w sw prev pos ang da.
Proof. intros ops. apply enforced_reported, history_inv. Qed.
Print Assumptions C32_enforced_limits_are_the_reported_ones.

Example C32_example : pl_history walk_ops = walk_cfg /\ pl_minT walk_cfg = 1 /\ pl_nomT walk_cfg = 1 /\ pl_maxT walk_cfg = 2.
Proof. split; [exact walk_cfg_ok|]. repeat split. Qed.
