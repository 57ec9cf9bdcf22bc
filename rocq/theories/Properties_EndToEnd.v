(** C29, C74, C75, C76: planner and generator together. *)
From Coq Require Import String Reals Lra Lia ZArith List Bool Sorting.Sorted Sorting.Permutation.
From Verif Require Import Prelude EvalTac FootPrint FootPrintSpec UnicycleFoot PlannerSearch PlannerSpec Planner PlannerProofs3 PlannerDemo Properties_Planner
  GenPhases GenSpec Properties_Generator FeetTraj FeetSpec Properties_Feet ZMP ZMPSpec CoMHeight CoMHeightSpec DCM Generator GeneratorSpec GeneratorProofs
  PlannerProofs6 PlannerProofs7 EndToEndSpec EndToEndProofs EndToEndProofs2 EndToEndProofs3 EndToEndProofs4 EndToEndDemo.
Import ListNotations.
Open Scope R_scope.
Notation Forall := List.Forall.

(** ** C29, a bound: the number of iterations is at most quadratic in the number of planner periods of the horizon. *)
Theorem C29_iterations_partial : forall ops e lfp rfp init tend fuel, let c := pl_history ops in
  0 < pl_dT c -> nonneg_times (fp_steps lfp) -> nonneg_times (fp_steps rfp) ->
  let n := Z.to_nat (up ((tend - init) / pl_dT c)) in (n * (n + 2) + n + 2 <= fuel)%nat ->
  compute_new_steps c e fuel lfp rfp init tend <> PFuel
  /\ forall fuel' res, compute_new_steps c e fuel' lfp rfp init tend = res -> res <> PFuel -> compute_new_steps c e fuel lfp rfp init tend = res.
Proof.
  intros ops e lfp rfp init tend fuel c Hd Nl Nr n Hf. pose proof (plan_bound c e fuel lfp rfp init tend (history_good ops) Hd Nl Nr Hf) as B. split; auto.
  intros fuel' res E N. destruct (Nat.le_ge_cases fuel' fuel) as [L|L]; [eapply plan_more; eauto|].
  rewrite <- E. symmetry. eapply plan_more; eauto.
Qed.
Print Assumptions C29_iterations_partial.

(** ** C74: a planning call returns true exactly when [can_plan]. *)
Theorem C74_plans_iff : forall ops e lfp rfp init tend, let c := pl_history ops in
  0 < pl_dT c -> (forall u, v_integ e u <> None) -> nonneg_times (fp_steps lfp) -> nonneg_times (fp_steps rfp) ->
  (fp_steps lfp = [] <-> fp_steps rfp = []) ->
  (exists fuel l r sw sl, compute_new_steps c e fuel lfp rfp init tend = PDone l r sw sl)
  <-> can_plan c e init tend (fp_steps lfp) (fp_steps rfp).
Proof.
  intros ops e lfp rfp init tend c Hd Hi Nl Nr Hb. split.
  - intros (fuel & l & r & sw & sl & H). eapply plan_needs; eauto.
  - intros Cn. destruct (plan_succeeds c e init tend lfp rfp (history_good ops) Hd Hi Cn) as (fuel & l & r & sw & sl & E). exists fuel, l, r, sw, sl. exact E.
Qed.
Print Assumptions C74_plans_iff.
Lemma walk_limits : 0 < pl_dT walk_cfg /\ 0 < pl_minT walk_cfg /\ pl_nomWidth walk_cfg <= pl_maxLen walk_cfg /\ pl_nomWidth walk_cfg <= pl_maxBack walk_cfg /\ pl_minAngle walk_cfg < pl_maxAngle walk_cfg.
Proof. pose proof PI_RGT_0. cbn. unfold deg2rad. repeat split; lra. Qed.
Example C74_example : can_plan (pl_history walk_ops) denv 0 3 (fp_steps fp_new) (fp_steps fp_new)
  /\ ~ can_plan (pl_history walk_ops) denv 0 0 (fp_steps fp_new) (fp_steps fp_new).
Proof.
  rewrite walk_cfg_ok. destruct walk_limits as (A & B & C & D & E). split.
  - constructor; auto; try lra. left. repeat split; auto. discriminate.
  - intros [_ _ _ _ _ H _]. lra.
Qed.

(** ** C75: a plan is a walk for the generator: it starts at [init], impacts are at least the minimum step time apart, and
    the first one leaves the guaranteed time. *)
Theorem C75_plan_is_a_walk : forall ops e fuel lfp rfp init tend l r sw sl lead, let c := pl_history ops in
  0 < pl_dT c -> 0 < pl_minT c -> nonneg_times (fp_steps lfp) -> nonneg_times (fp_steps rfp) -> fresh (fp_steps lfp) (fp_steps rfp) ->
  compute_new_steps c e fuel lfp rfp init tend = PDone l r sw sl ->
  walk (fp_steps (ft_fp l)) (fp_steps (ft_fp r)) init 0 (pl_minT c)
  /\ (guaranteed_lead c init (fp_steps lfp) (fp_steps rfp) lead -> walk (fp_steps (ft_fp l)) (fp_steps (ft_fp r)) init lead (pl_minT c))
  /\ fp_name (ft_fp l) = fp_name lfp /\ fp_name (ft_fp r) = fp_name rfp
  /\ (named lfp -> named rfp -> named (ft_fp l) /\ named (ft_fp r)).
Proof.
  intros ops e fuel lfp rfp init tend l r sw sl lead c Hd Hm Nl Nr Fr H.
  pose proof (fun x Hx => plan_walk c e fuel lfp rfp init tend l r sw sl x (history_good ops) Hm Nl Nr Fr Hx Hd H) as PW.
  destruct (lead_exists c init (fp_steps lfp) (fp_steps rfp)) as (lead0 & L0). destruct (PW lead0 L0) as (A1 & A2 & A3 & _).
  split; [eapply walk_weaken; [exact A3|apply Rmax_l]|]. split; [intros Hl; apply (PW lead Hl)|]. split; auto. split; auto. intros N1 N2. exact (plan_named _ _ _ _ _ _ _ _ _ _ _ N1 N2 H).
Qed.
Print Assumptions C75_plan_is_a_walk.
Example C75_example : 0 < pl_dT (pl_history walk_ops) /\ 0 < pl_minT (pl_history walk_ops) /\ fresh (fp_steps fp_new) (fp_steps fp_new)
  /\ guaranteed_lead (pl_history walk_ops) 0 (fp_steps fp_new) (fp_steps fp_new) 1
  /\ compute_new_steps (pl_history walk_ops) denv 9 fp_new fp_new 0 3 = PDone (lfoot Lw) (rfoot Rw) true true.
Proof.
  rewrite walk_cfg_ok. destruct walk_limits as (A & B & _). split; auto. split; auto. split; [left; split; reflexivity|]. split; [cbn; lra|exact walk_run].
Qed.

(** C75, the first generation: whatever has been configured before, with a planner in a working environment and a
    sampling time that suits settings and plug-ins, generate returns true. *)
Theorem C75_generate_succeeds : forall spl hspl fspl evs c e plan init dT tend srt,
  (forall T a m, 0 < T -> clamped T a m (hspl T a m)) ->
  let g := fold_left gn_call evs gen_new in
  working c e -> plans c e plan -> 0 <= init < tend -> suits dT (pl_nomT c) (pl_minT c) g ->
  (forall l r, plan (gn_left g) (gn_right g) init tend = (l, r, true) -> sort_result (fp_steps l) (fp_steps r) srt) ->
  snd (generate spl hspl fspl plan g init dT tend srt) = Done.
Proof.
  intros spl hspl fspl evs c e plan init dT tend srt Hs g Wk Pl Ht Su Hsrt.
  assert (L : forall es g0, live None g0 -> live None (fold_left gn_call es g0)) by (intros es; induction es as [|ev es IH]; intros g0 L; cbn [fold_left]; [exact L|apply IH; apply live_call; exact L]).
  destruct (generate_live spl hspl fspl Hs g c e plan init dT tend srt (L evs _ live_new) Wk Pl Ht Su Hsrt) as (g' & E & _). rewrite E. reflexivity.
Qed.
Print Assumptions C75_generate_succeeds.

(** C75, finding: the minimum step time is counted from the last landing, not from the time of the call.  A robot that
    has been standing since its last step may be asked to land a step one planner period after the call, although the
    minimum step time is four periods. *)
Theorem C75_time_for_the_first_step_refuted : exists ops e fuel lfp rfp init tend l r sw sl s,
  compute_new_steps (pl_history ops) e fuel lfp rfp init tend = PDone l r sw sl
  /\ fresh (fp_steps lfp) (fp_steps rfp) /\ (forall u, v_integ e u <> None)
  /\ planned_step (fp_steps (ft_fp l)) (fp_steps (ft_fp r)) true 1 s
  /\ st_time s = init + pl_dT (pl_history ops) /\ pl_minT (pl_history ops) = 4 * pl_dT (pl_history ops).
Proof.
  exists late_ops, late_env, 3%nat, lateL, lateR, 10, (21/2), (lfoot lateL'), (rfoot lateR), false, true, lateL1. rewrite late_cfg_ok.
  split; [exact late_run|]. split; [right; do 2 eexists; split; reflexivity|]. split; [discriminate|]. split; [split; [lia|reflexivity]|]. cbn. lra.
Qed.
Print Assumptions C75_time_for_the_first_step_refuted.

(** ** C76: a user who generates once and then re-generates at non-decreasing times in a working environment is never
    refused, and nothing undefined happens.
    Missing for the full C76: with plug-ins, calls that leave too little time before the first step; for these the claim
    is false, see [C76_late_call_refuted]. *)
Theorem C76_never_refused_partial : forall spl hspl fspl cs, (forall T a m, 0 < T -> clamped T a m (hspl T a m)) ->
  well_used spl hspl fspl None gen_new cs ->
  exists g os, session spl hspl fspl gen_new cs = Some (g, os) /\ Forall (fun o => o = Done) os.
Proof. intros spl hspl fspl cs Hs W. eapply session_live; eauto. exact live_new. Qed.
Print Assumptions C76_never_refused_partial.

(** Sorting is possible. *)
Fixpoint insert (x : tstep) (l : list tstep) : list tstep :=
  match l with [] => [x] | y :: r => if Rle_dec (st_time (t_step x)) (st_time (t_step y)) then x :: l else y :: insert x r end.
Lemma insert_perm : forall x l, Permutation (insert x l) (x :: l).
Proof. intros x l. induction l as [|y r IH]; cbn; [auto|]. destruct (Rle_dec _ _); [auto|]. rewrite IH. apply perm_swap. Qed.
Lemma insert_sorted : forall x l, StronglySorted tle l -> StronglySorted tle (insert x l).
Proof.
  intros x l H. induction H as [|y r H IH F]; cbn; [repeat constructor|]. destruct (Rle_dec _ _) as [L|L].
  - constructor; [constructor; auto|]. constructor; [exact L|]. eapply Forall_impl; [|exact F]. unfold tle. intros a Ha. lra.
  - constructor; auto. apply Forall_forall. intros z Hz. apply (Permutation_in _ (insert_perm x r)) in Hz. destruct Hz as [<-|Hz]; [unfold tle; lra|]. exact (proj1 (Forall_forall _ _) F z Hz).
Qed.
Lemma sort_exists : forall l r, exists srt, sort_result l r srt.
Proof.
  intros l r. exists (fold_right insert [] (all_steps l r)). split.
  - induction (all_steps l r) as [|x xs IH]; cbn; [auto|]. rewrite insert_perm, IH. reflexivity.
  - induction (all_steps l r) as [|x xs IH]; cbn; [constructor|]. apply insert_sorted; auto.
Qed.

(** Half a second after the first plan the user plans again. *)
Lemma walk_working : working walk_cfg denv.
Proof.
  destruct walk_limits as (A & B & C & D & E). constructor; auto; try discriminate. exists walk_ops. symmetry. apply walk_cfg_ok.
Qed.
Definition with_swing : gen := fold_left gn_call [GAddFeet; GFeet (FHeight (5/100))] gen_new.
Lemma with_swing_ok : with_swing = with_feet (Some (feet_history [FHeight (5/100)])) gen_new.
Proof. reflexivity. Qed.
Lemma swing_height : f_height (feet_history [FHeight (5/100)]) = 5/100.
Proof. cbn. rewrite rltb_f by lra. reflexivity. Qed.
Lemma walk_suits : forall g, gn_set g = gset_new -> gn_feet g = Some (feet_history [FHeight (5/100)]) -> gn_com g = None -> gn_dcm g = None -> gn_cub g = None -> suits (1/10) 1 1 g.
Proof.
  intros g E1 E2 E3 E4 E5. unfold suits, sampled_finely. rewrite E1. cbn [g_endSwitch g_switchPct g_nomStep gset_new].
  assert (M : Rmin (1/2) (1 - 1/2) = 1/2) by (unfold Rmin; destruct (Rle_dec _ _); lra). rewrite M.
  split; [lra|]. split; [lra|]. split; [lra|]. right. split; [lra|]. split; [|congruence|congruence|congruence]. intros c E. assert (c = feet_history [FHeight (5/100)]) by congruence. subst c. rewrite swing_height. lra.
Qed.
Example C76_example : forall spl hspl fspl mL mR, (forall T a m, 0 < T -> clamped T a m (hspl T a m)) ->
  exists srt1 srt2, well_used spl hspl fspl None gen_new
    [KCfg GAddFeet; KCfg (GFeet (FHeight (5/100))); KGen (planner walk_cfg denv) 0 (1/10) 3 srt1; KRe (planner walk_cfg denv) false (1/2) (1/10) 3 mL mR CNone srt2].
Proof.
  intros spl hspl fspl mL mR Hs. pose proof walk_working as Wk. assert (Wp : plans walk_cfg denv (planner walk_cfg denv)) by (rewrite <- walk_cfg_ok; apply planner_plans; [apply history_good|rewrite walk_cfg_ok; apply walk_limits]).
  set (g0 := with_swing). assert (L0 : live None g0) by (unfold g0, with_swing; cbn [fold_left]; apply live_call, live_call, live_new).
  destruct (planner walk_cfg denv (gn_left g0) (gn_right g0) 0 3) as [[l1 r1] ok1] eqn:E1. destruct (sort_exists (fp_steps l1) (fp_steps r1)) as (srt1 & S1).
  assert (Su0 : suits (1/10) (pl_nomT walk_cfg) (pl_minT walk_cfg) g0) by (apply walk_suits; reflexivity).
  assert (Hsrt1 : forall l r, planner walk_cfg denv (gn_left g0) (gn_right g0) 0 3 = (l, r, true) -> sort_result (fp_steps l) (fp_steps r) srt1) by (intros l r E; rewrite E1 in E; injection E as <- <- _; exact S1).
  destruct (generate_live spl hspl fspl Hs g0 walk_cfg denv (planner walk_cfg denv) 0 (1/10) 3 srt1 L0 Wk Wp ltac:(lra) Su0 Hsrt1) as (g1 & G1 & L1).
  destruct (replan (planner walk_cfg denv) false g1 (1/2) 3 mL mR CNone) as [g2 ok2] eqn:E2. destruct (sort_exists (fp_steps (gn_left g2)) (fp_steps (gn_right g2))) as (srt2 & S2).
  assert (Wk0 : walk (fp_steps (gn_left g1)) (fp_steps (gn_right g1)) 0 1 1 /\ gn_set g1 = gset_new /\ gn_feet g1 = Some (feet_history [FHeight (5/100)]) /\ gn_com g1 = None /\ gn_dcm g1 = None /\ gn_cub g1 = None).
  { destruct L0 as (_ & Nm & F1 & F2). destruct (working_plans walk_cfg denv (planner walk_cfg denv) (gn_left g0) (gn_right g0) 0 3 Wk Wp ltac:(lra) Nm) as (l2 & r2 & E & _ & _ & _ & _ & W);
      [rewrite F1; constructor|rewrite F2; constructor|left; auto|rewrite F1; discriminate|rewrite F2; discriminate|].
    assert (W1 : walk (fp_steps l2) (fp_steps r2) 0 1 (pl_minT walk_cfg)) by (apply W; rewrite F1; cbn; lra).
    unfold generate in G1. rewrite E in G1. cbn [negb] in G1. destruct (from_done _ _ _ _ _ _ _ _ _ _ G1) as (out & _ & _ & Hl & Hr & _ & _ & _ & _ & K1 & K2 & K3 & _ & K5 & K6 & _).
    rewrite Hl, Hr, K1, K2, K3. split; [exact W1|]. split; [reflexivity|]. split; [reflexivity|]. split; [reflexivity|]. split; [apply K5; reflexivity|]. rewrite K6. reflexivity. }
  destruct Wk0 as (W & Q1 & Q2 & Q3 & Q4 & Q5).
  exists srt1, srt2. do 2 apply WCfg. change (gn_call (gn_call gen_new GAddFeet) (GFeet (FHeight (5/100)))) with g0.
  apply WGen with (c := walk_cfg) (e := denv); auto; try lra. cbn [perform]. rewrite G1. cbn [fst].
  apply WRe with (c := walk_cfg) (e := denv) (lead := 1); auto; try lra; try discriminate.
  - apply walk_suits; auto.
  - intros pl pr l3 r3 P1 P2 Hd. right.
    assert (T : forall b p, In p (foot_list (fp_steps (gn_left g1)) (fp_steps (gn_right g1)) b) -> st_time p <= 1/2 -> st_time p <= 0).
    { intros b p I T. apply In_nth_error in I. destruct I as [[|i] I]; [exact (w_first _ _ _ _ _ W b p I)|].
      destruct (w_later _ _ _ _ _ W b (S i) p) as [_ ?]; [split; [lia|exact I]|]. lra. }
    destruct L1 as (_ & _ & _ & [N1 _] & [N2 _]).
    pose proof (present_in _ _ _ P1) as I1. pose proof (present_in _ _ _ P2) as I2.
    pose proof (proj1 (Forall_forall _ _) N1 _ I1). pose proof (proj1 (Forall_forall _ _) N2 _ I2).
    assert (T1 : st_time pl = 0) by (destruct P1 as (? & ? & _ & ? & _); pose proof (T true pl I1); cbn in *; lra).
    assert (T2 : st_time pr = 0) by (destruct P2 as (? & ? & _ & ? & _); pose proof (T false pr I2); cbn in *; lra).
    unfold handed in Hd. destruct Hd as (tl & tr & Nt & K1 & K2). cbn [corr_left corr_right] in *. unfold should_reset in Nt. rewrite Q4 in Nt. destruct Nt as [_ Nt].
    destruct Nt as [-> ->]; [intros [[? _]|[? _]]; discriminate|]. unfold kept in K1, K2. rewrite K1, K2. cbn. rewrite T1, T2. split; [lra|congruence].
  - intros g' E. rewrite E2 in E. injection E as <- _. exact S2.
  - constructor.
Qed.

(** C76, finding: everything is in order - planner, settings, plug-in, sampling time - but the user re-generates long
    after the last landing: the plan lands a step so early that no sample is left for the double support before it, and
    reGenerate returns false. *)
Definition lateSrt0 : list tstep := [MkT true 0 lateL0; MkT false 0 lateR0].
Lemma late_working : working late_cfg late_env.
Proof.
  pose proof PI_RGT_0. constructor; try discriminate; try reflexivity; try (cbn; lra); [exists late_ops; symmetry; apply late_cfg_ok|]. cbn. unfold deg2rad. lra.
Qed.
Lemma late_planner : planner late_cfg late_env lateL lateR 10 (21/2) = (lateL', lateR, true).
Proof.
  unfold planner. rewrite (plan_more late_cfg late_env 3 (iterations late_cfg 10 (21/2)) lateL lateR 10 (21/2) (PDone (lfoot lateL') (rfoot lateR) false true)); auto.
  - unfold iterations. cbn [pl_dT late_cfg]. replace ((21 / 2 - 10) / (1 / 2)) with 1 by lra. destruct (archimed 1) as [A _].
    assert (1 < up 1)%Z by (apply lt_IZR; exact A). lia.
  - exact late_run.
  - discriminate.
Qed.
Lemma late_suits : forall g, gn_set g = gset_new -> gn_feet g = Some (feet_history [FHeight (5/100)]) -> gn_com g = None -> gn_dcm g = None -> gn_cub g = None -> suits (3/5) 2 2 g.
Proof.
  intros g E1 E2 E3 E4 E5. unfold suits, sampled_finely. rewrite E1. cbn [g_endSwitch g_switchPct g_nomStep gset_new].
  assert (M : Rmin (1/2) (1 - 1/2) = 1/2) by (unfold Rmin; destruct (Rle_dec _ _); lra). rewrite M.
  split; [lra|]. split; [lra|]. split; [lra|]. right. split; [lra|]. split; [|congruence|congruence|congruence]. intros c E. assert (c = feet_history [FHeight (5/100)]) by congruence. subst c. rewrite swing_height. lra.
Qed.
Lemma late_walk : walk [lateL0] [lateR0] 1 2 2.
Proof.
  split; try discriminate.
  - repeat constructor.
  - repeat constructor.
  - intros [|] s E; injection E as <-; cbn; lra.
  - intros [|] i s [Hi E]; destruct i as [|[|i]]; try lia; discriminate.
  - intros [|] i s b' i' s' [Hi E]; destruct i as [|[|i]]; try lia; discriminate.
Qed.
Theorem C76_late_call_refuted : forall spl hspl fspl mL mR, (forall T a m, 0 < T -> clamped T a m (hspl T a m)) -> exists cs c e plan srt,
  working c e /\ plans c e plan
  /\ (exists g os, session spl hspl fspl gen_new cs = Some (g, os) /\ Forall (fun o => o = Done) os
      /\ suits (3/5) (pl_nomT c) (pl_minT c) g /\ suits (3/5) (pl_minT c) (pl_minT c) g
      /\ (forall g', replan plan false g 10 (21/2) mL mR CNone = (g', true) -> sort_result (fp_steps (gn_left g')) (fp_steps (gn_right g')) srt)
      /\ snd (regenerate spl hspl fspl plan false g 10 (3/5) (21/2) mL mR CNone srt) = Refused).
Proof.
  intros spl hspl fspl mL mR Hs.
  exists [KCfg GAddFeet; KCfg (GFeet (FHeight (5/100))); KFrom lateL lateR 1 (3/5) lateSrt0], late_cfg, late_env, (planner late_cfg late_env), lateSrt.
  split; [exact late_working|]. split; [rewrite <- late_cfg_ok; apply planner_plans; [apply history_good|rewrite late_cfg_ok; apply late_working]|].
  assert (L0 : live None with_swing) by (unfold with_swing; cbn [fold_left]; apply live_call, live_call, live_new).
  assert (D : snd (generate_from spl hspl fspl with_swing lateL lateR 1 (3/5) lateSrt0) = Done).
  { apply from_succeeds with (lead := 2) (gap := 2); auto.
    - apply L0.
    - split; [|split; [|split; [discriminate|split; reflexivity]]]; intros s [<-|[]]; reflexivity.
    - exact late_walk.
    - apply late_suits; reflexivity.
    - split; [apply Permutation_refl|]. repeat constructor. unfold tle. cbn. lra. }
  destruct (generate_from spl hspl fspl with_swing lateL lateR 1 (3/5) lateSrt0) as [g1 o1] eqn:G1. cbn [snd] in D. subst o1.
  exists g1, [Done; Done; Done]. split.
  { cbn [session perform]. change (gn_call (gn_call gen_new GAddFeet) (GFeet (FHeight (5/100)))) with with_swing. rewrite G1. reflexivity. }
  split; [repeat constructor|].
  destruct (from_done _ _ _ _ _ _ _ _ _ _ G1) as (out & _ & _ & Hl & Hr & _ & _ & _ & _ & K1 & K2 & K3 & _ & K5 & K6 & _).
  assert (K4 : gn_dcm g1 = None) by (apply K5; reflexivity).
  split; [apply late_suits; auto|]. split; [apply late_suits; auto|].
  assert (P1 : present (gn_left g1) 10 lateL0) by (rewrite Hl; exists [], []; split; [reflexivity|split; [cbn; lra|constructor]]).
  assert (P2 : present (gn_right g1) 10 lateR0) by (rewrite Hr; exists [], []; split; [reflexivity|split; [cbn; lra|constructor]]).
  destruct (replan_handed (planner late_cfg late_env) false g1 10 (21/2) mL mR CNone lateL0 lateR0 P1 P2 ltac:(cbn; lra) ltac:(cbn; lra) ltac:(discriminate) ltac:(discriminate)) as (l1 & r1 & Hd & Hp).
  assert (E : l1 = lateL /\ r1 = lateR).
  { unfold handed in Hd. destruct Hd as (tl & tr & Nt & A1 & A2). cbn [corr_left corr_right] in *. unfold should_reset in Nt. rewrite K4 in Nt. destruct Nt as [_ Nt].
    destruct Nt as [-> ->]; [intros [[? _]|[? _]]; discriminate|]. unfold kept in A1, A2. rewrite A1, A2, Hl, Hr. split; reflexivity. }
  destruct E as [-> ->]. destruct (Hp _ _ _ late_planner) as (g2 & E2 & L2 & R2).
  split; [intros g' E; rewrite E2 in E; injection E as <-; rewrite L2, R2; exact late_sort|].
  unfold regenerate. rewrite E2. cbn [negb]. rewrite L2, R2.
  pose proof (alike_replan (planner late_cfg late_env) false g1 10 (21/2) mL mR CNone) as Al. rewrite E2 in Al. cbn [fst] in Al. destruct Al as (Q1 & Q2 & Q3 & _).
  rewrite K1 in Q1. rewrite K2 in Q2. rewrite K6 in Q3. destruct late_phases as (o2 & Gp & _). pose proof (late_feet [FHeight (5/100)] o2 Gp) as Lf.
  unfold generate_from.
  assert (Ck : gen_checks lateL' lateR 10 (3/5) = true).
  { unfold gen_checks, fp_number. cbn -[Rmax Rleb Rltb]. rewrite rleb_f by lra. rewrite rltb_f by (apply Rmax_lub; lra). reflexivity. }
  rewrite Ck. cbn [negb]. assert (Q1' : gn_set (with_fps lateL' lateR g2) = gset_new) by (destruct g2; exact Q1). rewrite Q1', Gp.
  set (h0 := with_ph _ _). assert (Q2' : gn_feet h0 = Some (feet_history [FHeight (5/100)])) by (unfold h0; destruct g2; exact Q2).
  assert (Q3' : gn_cub h0 = None) by (unfold h0; destruct g2; exact Q3).
  unfold run_cubic. rewrite Q3'. cbn [andthen fst snd]. unfold run_feet. rewrite Q2', Lf. reflexivity.
Qed.
Print Assumptions C76_late_call_refuted.
