(** The walk of PlannerDemo.v with the names that the generator gives to its foot prints. *)
From Coq Require Import Reals Lra Lia String List Bool.
From Verif Require Import Prelude EvalTac FootPrint FootPrintSpec UnicycleFoot Ellipse Optimization PlannerSearch Planner FootSpec PlannerSpec PlannerProofs3 PlannerConfigSpec PlannerProofs5 PlannerDemo.
Import ListNotations.
Open Scope R_scope.

Definition nml : string := "left".
Definition nmr : string := "right".
Definition gL0 : footprint := MkFP [MkStep (V2 0 1) 0 0 nml] nml.
Definition gR0 : footprint := MkFP [MkStep (V2 0 (-1)) 0 0 nmr] nmr.
Definition gwcfg := pl_search walk_cfg 0 3 straight.
Definition gprevR : step := MkStep (V2 0 (-1)) 0 0 nmr.
Definition gstL : step := MkStep (V2 2 1) 0 2 nml.
Definition gstR : step := MkStep (V2 2 (-1)) 0 3 nmr.
Definition gcost2 : R := prob_cost walk_prob (cand_of (V2 2 2) 0 2 (V2 2 1) (V2 2 2)).
Definition g_at (t tOpt mc : R) : sst := MkS (lfoot gL0) (rfoot gR0) true true t tOpt mc 0 1 gprevR.
Definition g_mid : sst :=
  MkS (lfoot (MkFP [MkStep (V2 0 1) 0 0 nml; gstL] nml)) (rfoot gR0) false false 3 (-1) gcost2 0 0 gstL.
Definition g_endst : sst :=
  MkS (lfoot (MkFP [MkStep (V2 0 1) 0 0 nml; gstL] nml)) (rfoot (MkFP [gprevR; gstR] nmr)) true false 4 (-1) gcost2 0 0 gstR.
Ltac gwn := rn; cbv beta iota zeta delta [walk_cfg walk_prob g_at g_mid g_endst gwcfg gprevR gstL gstR lfoot rfoot gL0 gR0 nml nmr]; rn.

Lemma gwalk0 : iter1 gwcfg (g_at 0 (-1) (10^10)) = Ok (g_at 1 (-1) (10^10)).
Proof. unfold iter1, body, advance. gwn. repeat ev1. gwn. repeat ev1. req. Qed.
Lemma gwalk1 : iter1 gwcfg (g_at 1 (-1) (10^10)) = Ok (g_at 2 (-1) (10^10)).
Proof. unfold iter1, body, advance. gwn. repeat ev1. gwn. repeat ev1. req. Qed.
Lemma gwalk2 : iter1 gwcfg (g_at 2 (-1) (10^10)) = Ok (g_at 3 2 gcost2).
Proof.
  pose proof PI_RGT_0 as HPI.
  assert (H5 : 0 < deg2rad 5 < deg2rad 45) by (unfold deg2rad; lra).
  unfold iter1, body, advance, try_sample, get_rPl, get_rel, ft_posFromUnicycle, ft_isTiny. gwn.
  rewrite cos_0, sin_0. repeat ev1. gwn.
  unfold prob_feasible, maxLength_ok, minWidth_ok, maxAngle_ok, inEllipse_ok, maxBack_ok, ell_inside. gwn.
  cbn [e_set ell_clear negb]. rewrite ?cos_0, ?sin_0. repeat ev1. gwn. repeat ev1.
  unfold gcost2, walk_prob. req. unfold prob_cost. gwn. field.
Qed.
Lemma gwalk3 : iter1 gwcfg (g_at 3 2 gcost2) = Ok g_mid.
Proof.
  unfold iter1, body, advance, place_best, refresh_prev, ft_addFromUnicycle, fp_addStep, ft_isTiny. gwn. rewrite ?cos_0, ?sin_0.
  repeat ev1. gwn. repeat ev1. gwn. repeat ev1. rewrite ?cos_0, ?sin_0. req.
Qed.
Lemma gwalk4 : iter1 gwcfg g_mid = Ok g_endst.
Proof.
  unfold iter1, body, advance, place_parallel, refresh_prev, ft_addParallel, fp_addStep, ft_isTiny, ft_stateFromStep. gwn. rewrite ?cos_0, ?sin_0.
  repeat ev1. gwn. repeat ev1. gwn. replace (0 - 0) with 0 by lra. rewrite ?cos_0, ?sin_0. repeat ev1. gwn. repeat ev1. req.
Qed.

Lemma gwalk_loop : run_loop gwcfg 9 (g_at 0 (-1) (10^10)) = LDone g_endst.
Proof.
  cbn [run_loop]. rewrite gwalk0, gwalk1, gwalk2, gwalk3, gwalk4.
  change (g_end gwcfg) with 3. cbn [s_t g_at g_mid g_endst]. repeat ev1. reflexivity.
Qed.

Definition gL : footprint := MkFP [MkStep (V2 0 1) 0 0 nml; gstL; MkStep (V2 3 1) 0 4 nml] nml.
Definition gR : footprint := MkFP [gprevR; gstR; MkStep (V2 3 (-1)) 0 5 nmr] nmr.
Lemma gwalk_terminal : terminal_step gwcfg true (s_left g_endst) (s_right g_endst) (straight 3) = Ok (lfoot gL, rfoot gR).
Proof.
  pose proof PI_RGT_0 as HPI.
  assert (H5 : 0 < deg2rad 5 < deg2rad 45) by (unfold deg2rad; lra).
  assert (HM : Rmax (0 + 1) (3 + 1) = 4) by (unfold Rmax; destruct (Rle_dec _ _); lra).
  unfold terminal_step, get_rPl, get_rel, ft_posFromUnicycle, ft_isTiny, ft_stateFromStep. gwn.
  rewrite cos_0, sin_0, HM.
  unfold prob_feasible, maxLength_ok, minWidth_ok, maxAngle_ok, inEllipse_ok, maxBack_ok, ell_inside. gwn.
  cbn [e_set ell_clear negb]. rewrite ?cos_0, ?sin_0. repeat ev1. gwn.
  unfold ft_addFromUnicycle, fp_addStep. gwn. repeat ev1. gwn. rewrite cos_0, sin_0. repeat ev1.
  unfold gL, gR. gwn. req.
Qed.

Lemma gwalk_init : init_planner walk_cfg denv 0 3 (MkFP [] "left") (MkFP [] "right")
  = Some (MkInit (lfoot gL0) (rfoot gR0) true true (MkU vzero 0), straight).
Proof.
  unfold init_planner, init_state, feet_state, ft_addFromUnicycle, fp_addStep, Rgtb. gwn.
  rewrite cos_0, sin_0. repeat ev1. gwn. req.
Qed.

Lemma gwalk_run : compute_new_steps walk_cfg denv 9 (MkFP [] "left") (MkFP [] "right") 0 3 = PDone (lfoot gL) (rfoot gR) true true.
Proof.
  pose proof PI_RGT_0 as HPI.
  assert (H5 : 0 < deg2rad 5 < deg2rad 45) by (unfold deg2rad; lra).
  unfold compute_new_steps, Rgtb, Rgeb. rewrite gwalk_init.
  cbn [pl_nomWidth pl_maxLen pl_maxBack pl_minAngle pl_maxAngle walk_cfg v_satOk denv negb i_left i_right i_swingLeft i_first pl_addTerm pl_reset pl_startLeft].
  repeat ev1.
  unfold search_steps. fold gwcfg.
  change (ft_getLast (rfoot gR0)) with (Some gprevR). cbv beta iota zeta.
  change (g_init gwcfg) with 0. change (g_nomT gwcfg) with 1. change (st_time gprevR) with 0. replace (0 - 0) with 0 by lra.
  fold (g_at 0 (-1) (10 ^ 10)). rewrite gwalk_loop.
  change (s_swingLeft g_endst) with true. change (g_sol gwcfg (g_end gwcfg)) with (straight 3). rewrite gwalk_terminal. reflexivity.
Qed.
