(** An explicit bound on the number of iterations; the planner as a function. *)
From Coq Require Import String Reals Lra Lia ZArith List Bool.
From Verif Require Import Prelude FootPrint FootPrintSpec UnicycleFoot PlannerSearch PlannerSpec Planner PlannerProofs PlannerProofs2 PlannerProofs3 EndToEndSpec.
Import ListNotations.
Open Scope R_scope.

Lemma search_bound : forall c addTerm reset l r sw first sl fuel,
  0 < g_dT c -> 0 <= g_nomT c -> g_init c < g_end c -> 0 <= g_init c ->
  let n := Z.to_nat (up ((g_end c - g_init c) / g_dT c)) in (n * (n + 2) + n + 2 <= fuel)%nat ->
  search_steps c fuel addTerm reset l r sw first sl <> PFuel.
Proof.
  intros c addTerm reset l r sw first sl fuel HdT Hnom He Hi n Hf.
  assert (HN : (g_end c - g_init c) / g_dT c < INR n).
  { unfold n. set (x := (g_end c - g_init c) / g_dT c). destruct (archimed x) as [H _]. rewrite INR_IZR_INZ.
    destruct (Z.le_gt_cases 0 (up x)) as [Hz|Hz]; [rewrite Z2Nat.id; auto|].
    assert (IZR (up x) < 0) by (apply IZR_lt; auto). replace (Z.to_nat (up x)) with 0%nat by lia. simpl. lra. }
  clearbody n.
  assert (HN' : g_end c <= g_init c + INR n * g_dT c).
  { assert ((g_end c - g_init c) / g_dT c * g_dT c < INR n * g_dT c) by (apply Rmult_lt_compat_r; auto).
    unfold Rdiv in H. rewrite Rmult_assoc, Rinv_l, Rmult_1_r in H by lra. lra. }
  unfold search_steps. destruct (ft_getLast _) as [prev|]; [|discriminate].
  cbv zeta. match goal with |- context [run_loop c fuel ?s] => set (s0 := s) end.
  assert (HT : TInv c n s0 0 0).
  { unfold TInv, s0; simpl. repeat split; try lia.
    - unfold grid; simpl. rewrite Rmin_left; lra.
    - destruct first; lra.
    - left; lra. }
  assert (Hm : (measure n 0 0 < fuel)%nat) by (unfold measure; nia).
  pose proof (loop_terminates c HdT n HN' fuel s0 0 0 HT Hm) as L.
  destruct (run_loop c fuel s0) as [s| |]; try discriminate; try congruence.
  match goal with |- context [match ?x with Ok _ => _ | Fail => _ | UB => _ end] => destruct x as [[a b]| |] end; try discriminate.
  destruct (_ && _); try discriminate. destruct (sync_feet _ _ _ _) as [[[? ?] ?]| |]; discriminate.
Qed.

Lemma plan_bound : forall c e fuel lfp rfp init tend, good_cfg c -> 0 < pl_dT c -> nonneg_times (fp_steps lfp) -> nonneg_times (fp_steps rfp) ->
  (iterations c init tend <= fuel)%nat -> compute_new_steps c e fuel lfp rfp init tend <> PFuel.
Proof.
  intros c e fuel lfp rfp init tend [G1 G2 G3 G4] HdT Nl Nr Hf. unfold compute_new_steps.
  destruct (Rgtb _ _); [discriminate|]. destruct (Rgtb _ _); [discriminate|]. destruct (Rgeb _ _); [discriminate|]. destruct (negb _); [discriminate|].
  destruct (init_planner c e init tend lfp rfp) as [[i sol]|] eqn:Ei; [|discriminate].
  destruct (ft_getLast (stance_of (i_swingLeft i) (i_left i) (i_right i))) as [prev0|] eqn:Ep.
  - destruct (init_facts _ _ _ _ _ _ _ _ _ Nl Nr Ei Ep) as (F1 & F2 & _). apply search_bound; simpl; try lra. exact Hf.
  - unfold search_steps. unfold stance_of in Ep. rewrite Ep. discriminate.
Qed.

(** More iterations than needed change nothing. *)
Lemma loop_more : forall c fuel fuel' s r, (fuel <= fuel')%nat -> run_loop c fuel s = r -> r <> LFuel -> run_loop c fuel' s = r.
Proof.
  intros c fuel. induction fuel as [|f IH]; intros fuel' s r L E N.
  - cbn [run_loop] in E. destruct (Rleb (s_t s) (g_end c)) eqn:Q; [congruence|]. destruct fuel'; cbn [run_loop]; rewrite Q; exact E.
  - destruct fuel' as [|f']; [lia|]. cbn [run_loop] in *. destruct (Rleb (s_t s) (g_end c)); [|exact E]. destruct (iter1 c s); auto. apply IH; auto. lia.
Qed.
Lemma plan_more : forall c e fuel fuel' l r init tend res, (fuel <= fuel')%nat -> compute_new_steps c e fuel l r init tend = res -> res <> PFuel ->
  compute_new_steps c e fuel' l r init tend = res.
Proof.
  intros c e fuel fuel' l r init tend res L. unfold compute_new_steps.
  destruct (Rgtb _ _); [auto|]. destruct (Rgtb _ _); [auto|]. destruct (Rgeb _ _); [auto|]. destruct (negb _); [auto|].
  destruct (init_planner c e init tend l r) as [[i sol]|]; [|auto]. unfold search_steps. destruct (ft_getLast _); [|auto]. intros E N.
  match type of E with match run_loop ?c ?f ?s with _ => _ end = _ => destruct (run_loop c f s) as [sx| |] eqn:Q end; [| |congruence];
    rewrite (loop_more _ _ fuel' _ _ L Q) by discriminate; exact E.
Qed.

Lemma planner_plans : forall c e, good_cfg c -> 0 < pl_dT c -> plans c e (planner c e).
Proof.
  intros c e G Hd l r i t Nl Nr. pose proof (plan_bound c e _ l r i t G Hd Nl Nr (Nat.le_refl _)) as B. unfold planner.
  destruct (compute_new_steps c e (iterations c i t) l r i t) as [lf rf sw sl| | |] eqn:E; [left|right|right|congruence].
  - exists (iterations c i t), lf, rf, sw, sl. auto.
  - split; [|reflexivity]. intros fuel lf rf sw sl H. destruct (Nat.le_ge_cases fuel (iterations c i t)) as [L|L].
    + rewrite (plan_more _ _ _ _ _ _ _ _ _ L H) in E by discriminate. discriminate.
    + rewrite (plan_more _ _ _ _ _ _ _ _ _ L E) in H by discriminate. discriminate.
  - split; [|reflexivity]. intros fuel lf rf sw sl H. destruct (Nat.le_ge_cases fuel (iterations c i t)) as [L|L].
    + rewrite (plan_more _ _ _ _ _ _ _ _ _ L H) in E by discriminate. discriminate.
    + rewrite (plan_more _ _ _ _ _ _ _ _ _ L E) in H by discriminate. discriminate.
Qed.
