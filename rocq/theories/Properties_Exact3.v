(** The exact condition for C29. *)
From Coq Require Import Reals Lra List Bool.
From Verif Require Import Prelude FootPrint UnicycleFoot Ellipse Optimization PlannerSearch Planner PlannerProofs3 PlannerDemo Properties_Planner.
Import ListNotations.
Open Scope R_scope.

(** With the accepted period 0 no call ever plans: whatever the settings, foot prints and controller, a call refuses at once or runs for ever. *)
Theorem C29_zero_period_plans_nothing : forall ops e lfp rfp init tend, let c := pl_history ops in pl_dT c = 0 ->
  (forall fuel, compute_new_steps c e fuel lfp rfp init tend = PFail) \/ (forall fuel, compute_new_steps c e fuel lfp rfp init tend = PFuel).
Proof.
  intros ops e lfp rfp init tend c Z. destruct (history_good ops) as [G1 G2 _ _]. fold c in G1, G2. unfold compute_new_steps.
  destruct (Rgtb (pl_nomWidth c) (pl_maxLen c)); [left; reflexivity|]. destruct (Rgtb (pl_nomWidth c) (pl_maxBack c)); [left; reflexivity|]. destruct (Rgeb (pl_minAngle c) (pl_maxAngle c)); [left; reflexivity|]. destruct (negb (v_satOk e)); [left; reflexivity|].
  destruct (init_planner c e init tend lfp rfp) as [[i sol]|] eqn:I; [|left; reflexivity]. unfold search_steps. destruct (ft_getLast _) as [prev|]; [|left; reflexivity]. right. intros fuel.
  assert (L : init < tend). { unfold init_planner in I. destruct (init_state _ _ _ _ _); [|discriminate]. destruct (Rleb tend init) eqn:E; [discriminate|]. apply Rleb_false in E. exact E. }
  rewrite zero_loop; [reflexivity|exact Z|reflexivity|exact L|]. cbn [s_offset]. destruct (i_first i); cbn [g_nomT pl_search]; lra.
Qed.
Print Assumptions C29_zero_period_plans_nothing.

(** So a plan is returned only with a positive period, with which every call returns (C29_planning_terminates_partial). *)
Theorem C29_plan_needs_period : forall ops e fuel lfp rfp init tend l r sw sl, compute_new_steps (pl_history ops) e fuel lfp rfp init tend = PDone l r sw sl -> 0 < pl_dT (pl_history ops).
Proof.
  intros ops e fuel lfp rfp init tend l r sw sl H. destruct (Rle_lt_or_eq_dec 0 (pl_dT (pl_history ops))) as [D|D]; [destruct (history_good ops); auto|exact D|].
  exfalso. destruct (C29_zero_period_plans_nothing ops e lfp rfp init tend (eq_sym D)) as [K|K]; rewrite K in H; discriminate.
Qed.
Print Assumptions C29_plan_needs_period.
