(** Concrete runs of planner and generator together. *)
From Coq Require Import Reals Lra Lia String List Bool Sorting.Sorted Sorting.Permutation.
From Verif Require Import Prelude EvalTac Rounding FootPrint FootPrintSpec UnicycleFoot Ellipse Optimization PlannerSearch Planner FootSpec PlannerSpec PlannerProofs3 PlannerConfigSpec PlannerProofs5 PlannerDemo
  GenPhases GenSpec GenProofs GenProofs2 GenProofs3 GenProofs4 FeetTraj FeetSpec FeetProofs FeetProofs2 FeetProofs3 Properties_Generator Properties_Feet Generator GeneratorSpec GeneratorProofs EndToEndSpec.
Import ListNotations.
Open Scope R_scope.

(** The right foot landed at time 1; the robot has been standing since, the left foot behind; at time 10 it plans again. *)
Definition late_ops : list plop := [PlMaxLen1 10; PlWidth 0 2; PlPeriod (1/2); PlTimings 2 2 2; PlController CDirect; PlAddTerm false].
Definition late_cfg : plcfg :=
  MkPl 2 2 2 (1/2) (deg2rad 5) 2 10 10 (5 / 100) (deg2rad 45) false true false 0 0 (9 / 10) (7 / 10) CDirect FsReference
       (1 / 100) (1 / 100) walk_prob.
Lemma late_cfg_ok : pl_history late_ops = late_cfg.
Proof.
  unfold pl_history, late_ops. cbn [fold_left]. rewrite new_explicit.
  rewrite run_maxLen, run_width, run_period, run_timings by lra. reflexivity.
Qed.
Definition late_sol : R -> ustate := fun t => MkU (V2 (t - 10) 0) 0.
Definition late_env : planenv := MkEnv true None vzero 0 (fun _ => Some late_sol).
Definition lateL0 : step := MkStep (V2 (-1) 1) 0 0 "left".
Definition lateR0 : step := MkStep (V2 0 (-1)) 0 1 "right".
Definition lateL1 : step := MkStep (V2 0 1) 0 (21/2) "left".
Definition lateL : footprint := MkFP [lateL0] "left".
Definition lateR : footprint := MkFP [lateR0] "right".
Definition lateL' : footprint := MkFP [lateL0; lateL1] "left".
Definition lcfg := pl_search late_cfg 10 (21/2) late_sol.
Definition l_at (t : R) : sst := MkS (lfoot lateL) (rfoot lateR) true false t (-1) (10 ^ 10) 9 0 lateR0.
Definition l_end : sst := MkS (lfoot lateL') (rfoot lateR) false false 11 (-1) (10 ^ 10) 0 0 lateL1.
Ltac ln := rn; cbv beta iota zeta delta [late_cfg late_env late_sol walk_prob l_at l_end lcfg lateL lateR lateL' lateL0 lateL1 lateR0 lfoot rfoot]; rn.
Lemma late_init : init_planner late_cfg late_env 10 (21/2) lateL lateR = Some (MkInit (lfoot lateL) (rfoot lateR) true false (MkU vzero 0), late_sol).
Proof.
  unfold init_planner, init_state, feet_state, ft_stateFromStep, Rgtb. ln.
  repeat ev1. ln. repeat ev1. ln. replace (0 - 0) with 0 by lra. rewrite cos_0, sin_0. req.
Qed.
Lemma late_loop : run_loop lcfg 3 (l_at 10) = LDone l_end.
Proof.
  assert (H5 : 0 < deg2rad 5) by (pose proof PI_RGT_0; unfold deg2rad; lra).
  assert (E1 : iter1 lcfg (l_at 10) = Ok (l_at (21/2))).
  { unfold iter1, body, advance. ln. repeat ev1. ln. repeat ev1. req. }
  assert (E2 : iter1 lcfg (l_at (21/2)) = Ok l_end).
  { unfold iter1, body, advance, place_parallel, refresh_prev, ft_addParallel, fp_addStep, ft_isTiny, ft_stateFromStep. ln. rewrite ?cos_0, ?sin_0.
    repeat ev1. ln. repeat ev1. ln. replace (0 - 0) with 0 by lra. rewrite ?cos_0, ?sin_0. repeat ev1. ln. repeat ev1. req. }
  cbn [run_loop]. rewrite E1, E2.
  change (g_end lcfg) with (21/2). cbn [s_t l_at l_end]. repeat ev1. reflexivity.
Qed.
Lemma late_run : compute_new_steps late_cfg late_env 3 lateL lateR 10 (21/2) = PDone (lfoot lateL') (rfoot lateR) false true.
Proof.
  pose proof PI_RGT_0 as HPI.
  assert (H5 : 0 < deg2rad 5 < deg2rad 45) by (unfold deg2rad; lra).
  unfold compute_new_steps, Rgtb, Rgeb. rewrite late_init.
  cbn [pl_nomWidth pl_maxLen pl_maxBack pl_minAngle pl_maxAngle late_cfg v_satOk late_env negb i_left i_right i_swingLeft i_first pl_addTerm pl_reset pl_startLeft].
  repeat ev1.
  unfold search_steps. fold lcfg.
  change (ft_getLast (rfoot lateR)) with (Some lateR0). cbv beta iota zeta.
  change (g_init lcfg) with 10. change (st_time lateR0) with 1. replace (10 - 1) with 9 by lra.
  fold (l_at 10). rewrite late_loop. reflexivity.
Qed.

(** The generator then gets a step of half a second. *)
Definition lateSrt : list tstep := [MkT true 0 lateL0; MkT false 0 lateR0; MkT true 1 lateL1].
Lemma late_sort : sort_result (fp_steps lateL') (fp_steps lateR) lateSrt.
Proof.
  split.
  - unfold lateSrt, all_steps, lateL', lateR. cbn. apply perm_skip. apply perm_swap.
  - repeat (constructor; [|repeat constructor; unfold tle; simpl; lra]). constructor.
Qed.
Lemma late_phases : exists out, generate_phases gset_new lateL' lateR 10 (3/5) lateSrt = Ok out
  /\ ph_shift (go_ph out) = [0%nat; 0%nat; 1%nat; 3%nat]
  /\ ph_left (go_ph out) = [Swing; SwitchIn; SwitchIn]
  /\ ph_right (go_ph out) = [Stance; SwitchOut; SwitchOut].
Proof.
  unfold generate_phases. cbn -[Rltb Rleb Rmax order_steps create_phases Reqb].
  rewrite (rleb_f (3/5) 0) by lra. rewrite (rltb_f 10 (Rmax 0 1)) by (unfold Rmax; destruct (Rle_dec 0 1); lra).
  assert (Eo : order_steps lateSrt = Ok lateSrt) by (unfold order_steps, lateSrt; cbn -[Reqb]; rewrite ?(reqb_f 0 1) by lra; reflexivity).
  rewrite Eo. cbn [rbind]. unfold create_phases, lateSrt, gset_new. cbn [last hd t_step st_time lateL0 lateR0 lateL1].
  cbn [g_switchPct g_endSwitch g_maxStep g_nomStep g_pause g_mrBegin g_mrEnd].
  match goal with |- context [size_ceil ?x] => destruct (size_ceil_nonneg x) as (n & ->); [lra|] end. cbn [rbind cp_loop].
  unfold cp_step. cbn [c_prev t_step st_time t_left t_idx c_li c_ri c_cur c_lp c_rp c_shift c_merge c_ub Nat.eqb lateL1].
  rewrite (rltb_f (21/2 - 10) 0) by lra.
  unfold switch_time. cbn [g_switchPct g_endSwitch g_maxStep g_nomStep g_pause].
  rewrite (rgtb_f (21/2 - 10) 10), (reqb_f 0 1) by lra. cbn [negb andb].
  rewrite (size_round_imp ((21/2 - 10) / (3/5)) 1) by (simpl; lra). cbn [rbind].
  rewrite (size_round_imp (1 / 2 / (1 - 1 / 2 / 2) * (21/2 - 10) / 2 / (3/5)) 0) by (simpl; lra). cbn [rbind].
  rewrite sub_size_le by lia. cbn [rbind]. cbn -[size_round].
  rewrite (size_round_imp (1 / (3/5)) 2) by (simpl; lra). cbn [rbind].
  eexists; split; [reflexivity|]. cbn [go_ord go_ph ph_shift ph_right ph_left repeat app]. auto.
Qed.
Lemma late_feet : forall fops out, generate_phases gset_new lateL' lateR 10 (3/5) lateSrt = Ok out ->
  feet_compute (feet_history fops) (3/5) (fp_steps lateL') (fp_steps lateR) (ph_left (go_ph out)) (ph_right (go_ph out)) (ph_shift (go_ph out)) = Fail.
Proof.
  intros fops out H. destruct late_phases as (out' & H' & Hs & Hl & Hr). rewrite H in H'. injection H' as <-.
  pose proof (feet_history_ok fops) as Hc. set (c := feet_history fops) in *. rewrite Hs, Hr, Hl.
  unfold feet_compute, interpolate_foot. destruct (Rltb (f_height c) 0); [reflexivity|]. cbn [tl lateL' lateR fp_steps].
  cbn [feet_loop nth_error Nat.sub repeat length Nat.add Nat.ltb Nat.leb rbind app].
  destruct (sub_size 0 0) eqn:E0; [|cbn in E0; discriminate|cbn in E0; discriminate]. cbn in E0. injection E0 as <-. cbn [rbind].
  destruct (swing_ok c (3/5) 0 lateL0 lateL1 Hc ltac:(lra)) as (o & -> & Lo & _).
  destruct o; [|discriminate]. cbn [rbind]. reflexivity.
Qed.
