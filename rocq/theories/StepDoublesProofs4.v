(** The exact planner is an instance of the planner over an arithmetic. *)
From Coq Require Import String Reals ZArith Lra List Bool.
From Verif Require Import Prelude FootPrint UnicycleFoot Ellipse Optimization PlannerSearch Planner Doubles CtrlDoubles NavDoublesSpec TimedPlan TimedPlanSpec TimedPlanProofs
  StepDoubles StepDoublesSpec.
Import ListNotations.

(** Plans do not depend on how poses are represented. *)
Section Natural.
Variables (N P P' : Type) (A : arith N) (f : P -> P') (c : tcfg N) (o : geo N P) (o' : geo N P').
Definition on_step (x : P * N) : P' * N := (f (fst x), snd x).
Notation g := on_step.
Notation m := (map on_step).
Hypothesis H_checks : o_checks o' = o_checks o.
Hypothesis H_integ : o_integ o' = o_integ o.
Hypothesis H_point : o_point o' = o_point o.
Hypothesis H_lateral : o_lateral o' = o_lateral o.
Hypothesis H_first : forall b, o_first o' b = f (o_first o b).
Hypothesis H_tiny : forall sw l r t, o_tiny o' sw (m l) (m r) t = o_tiny o sw l r t.
Hypothesis H_cand : forall sw l r p t dt, o_cand o' sw (m l) (m r) (g p) t dt = o_cand o sw l r p t dt.
Hypothesis H_pose : forall sw l r t, o_pose o' sw (m l) (m r) t = option_map f (o_pose o sw l r t).
Hypothesis H_still : forall sw l r p, o_still o' sw (m l) (m r) (g p) = o_still o sw l r p.
Hypothesis H_par : forall sw l r, o_par o' sw (m l) (m r) = option_map f (o_par o sw l r).
Hypothesis H_term : forall sw l r p dt, o_term o' sw (m l) (m r) (g p) dt = o_term o sw l r p dt.
Hypothesis H_again : forall b p, o_again o' b (f p) = f (o_again o b p).

Definition on_st (s : tst N P) : tst N P' :=
  MkTS (m (t_left s)) (m (t_right s)) (t_sw s) (t_t s) (t_opt s) (t_minCost s) (t_pause s) (t_off s) (g (t_prev s)).
Definition on_res {X Y : Type} (h : X -> Y) (r : res X) : res Y := match r with Ok x => Ok (h x) | Fail => Fail | UB => UB end.
Definition on_plan (r : tres N P) : tres N P' :=
  match r with TDone l r sw sl => TDone (m l) (m r) sw sl | TFail => TFail | TUB => TUB | TFuel => TFuel end.

Lemma add_nat : forall p t l, t_add A (f p) t (m l) = option_map (fun x => m x) (t_add A p t l).
Proof. intros. unfold t_add. destruct (below0 A t); [reflexivity|]. cbn [option_map]. rewrite map_app. reflexivity. Qed.
Lemma step_nat : forall (sw : bool) l r p t, t_step A sw (m l) (m r) (f p) t = option_map (fun x => (m (fst x), m (snd x))) (t_step A sw l r p t).
Proof. intros. unfold t_step. destruct sw; rewrite add_nat; destruct (t_add A p t _); reflexivity. Qed.
Lemma pick : forall (sw : bool) (l r : tfoot N P), (if sw return tfoot N P' then m l else m r) = m (if sw return tfoot N P then l else r).
Proof. intros []; reflexivity. Qed.
Lemma pick2 : forall (sw : bool) (l r : tfoot N P), (if sw return list (P' * N) then m l else m r) = m (if sw return list (P * N) then l else r).
Proof. intros []; reflexivity. Qed.
Lemma last_nat : forall l : list (P * N), last_opt (m l) = option_map g (last_opt l).
Proof. intros. apply last_opt_map. Qed.
Ltac dl := match goal with |- context [@last_opt ?T ?x] => destruct (@last_opt T x) end.
Tactic Notation "dl" "as" ident(prev) := match goal with |- context [@last_opt ?T ?x] => destruct (@last_opt T x) as [prev|]; [|reflexivity] end.
Lemma refresh_nat : forall s, t_refresh (on_st s) = on_res on_st (t_refresh s).
Proof. intros s. unfold t_refresh, t_stance. cbn [on_st t_sw t_left t_right]. rewrite pick, last_nat. dl; reflexivity. Qed.
Lemma best_nat : forall s, t_best A o' (on_st s) = on_res on_st (t_best A o s).
Proof.
  intros s. unfold t_best. cbn [on_st t_sw t_left t_right t_opt]. rewrite H_pose. destruct (o_pose o (t_sw s) (t_left s) (t_right s) (t_opt s)) as [p|]; [|reflexivity]. cbn [option_map].
  rewrite step_nat. destruct (t_step A (t_sw s) (t_left s) (t_right s) p (t_opt s)) as [[l r]|]; reflexivity.
Qed.
Lemma parallel_nat : forall s, t_parallel A o' (on_st s) = on_res on_st (t_parallel A o s).
Proof.
  intros s. unfold t_parallel. cbn [on_st t_sw t_left t_right t_prev t_t]. rewrite H_still, H_par. destruct (o_still o (t_sw s) (t_left s) (t_right s) (t_prev s)) as [[]|]; [reflexivity| |reflexivity]. cbn [negb].
  destruct (o_par o (t_sw s) (t_left s) (t_right s)) as [p|]; [|reflexivity]. cbn [option_map]. rewrite step_nat. destruct (t_step A (t_sw s) (t_left s) (t_right s) p (t_t s)) as [[l r]|]; reflexivity.
Qed.
Lemma try_nat : forall s dt, t_try A o' (on_st s) dt = on_res on_st (t_try A o s dt).
Proof.
  intros s dt. unfold t_try. cbn [on_st t_sw t_left t_right t_prev t_t t_opt t_minCost]. rewrite H_cand. destruct (o_cand o (t_sw s) (t_left s) (t_right s) (t_prev s) (t_t s) dt) as [cd|]; [|reflexivity].
  destruct (if a_lt A (c0 A) dt then cd else None); [|reflexivity]. destruct (_ || _); reflexivity.
Qed.
Lemma body_nat : forall s, t_body A c o' (on_st s) = on_res on_st (t_body A c o s).
Proof.
  intros s. unfold t_body. change (t_t (on_st s)) with (t_t s). change (snd (t_prev (on_st s))) with (snd (t_prev s)). change (t_sw (on_st s)) with (t_sw s). change (t_left (on_st s)) with (m (t_left s)).
  change (t_right (on_st s)) with (m (t_right s)). change (t_opt (on_st s)) with (t_opt s). change (t_pause (on_st s)) with (t_pause s). change (t_off (on_st s)) with (t_off s). cbv zeta. destruct (_ && _); [|reflexivity]. rewrite H_tiny. destruct (negb _); [|reflexivity].
  destruct (_ || _); [|apply try_nat].
  destruct (a_lt A (c0 A) (t_opt s)); [rewrite best_nat|rewrite parallel_nat]; [destruct (t_best A o s) as [s1| |]|destruct (t_parallel A o s) as [s1| |]]; try reflexivity; exact (refresh_nat s1).
Qed.
Lemma iter_nat : forall s, t_iter A c o' (on_st s) = on_res on_st (t_iter A c o s).
Proof. intros s. unfold t_iter. rewrite body_nat. destruct (t_body A c o s); reflexivity. Qed.
Lemma run_nat : forall n s, t_run A c o' n (on_st s) = match t_run A c o n s with TLDone x => TLDone (on_st x) | TLFail => TLFail | TLFuel => TLFuel end.
Proof.
  induction n as [|n IH]; intros s; cbn [t_run]; change (t_t (on_st s)) with (t_t s); destruct (a_le A (t_t s) (c_end c)); try reflexivity.
  rewrite iter_nat. destruct (t_iter A c o s); [apply IH|reflexivity|reflexivity].
Qed.
Definition on_pair (x : tfoot N P * tfoot N P) : tfoot N P' * tfoot N P' := (m (fst x), m (snd x)).
Lemma terminal_nat : forall (sw : bool) l r, t_terminal A c o' sw (m l) (m r) = on_res on_pair (t_terminal A c o sw l r).
Proof.
  intros sw l r. unfold t_terminal. rewrite pick2, last_nat. dl as prev. cbn [option_map]. change (snd (g prev)) with (snd prev). cbv zeta. rewrite H_term.
  destruct (o_term o sw l r prev _) as [[]|]; [| |reflexivity].
  - rewrite H_pose. destruct (o_pose o sw l r (c_end c)) as [p|]; [|reflexivity]. cbn [option_map]. rewrite step_nat. destruct (t_step A sw l r p _) as [[l1 r1]|]; [|reflexivity]. cbn [option_map fst snd].
    rewrite H_pose. destruct (o_pose o (negb sw) l1 r1 (c_end c)) as [q|]; [|reflexivity]. cbn [option_map]. rewrite step_nat. destruct (t_step A (negb sw) l1 r1 q _) as [[l2 r2]|]; reflexivity.
  - rewrite H_still. destruct (o_still o sw l r prev) as [[]|]; [reflexivity| |reflexivity]. cbn [negb]. rewrite H_par. destruct (o_par o sw l r) as [p|]; [|reflexivity]. cbn [option_map]. rewrite step_nat.
    destruct (t_step A sw l r p _) as [[l2 r2]|]; reflexivity.
Qed.
Lemma removelast_nat : forall l : list (P * N), removelast (m l) = m (removelast l).
Proof. intros. apply removelast_map'. Qed.
Lemma sync_nat : forall l r, t_sync A c o' (m l) (m r) = on_res (fun x => (on_pair (fst x), snd x)) (t_sync A c o l r).
Proof.
  intros l r. unfold t_sync. rewrite !last_nat. destruct (last_opt l) as [[p tl]|]; [|reflexivity]. destruct (last_opt r) as [[q tr]|]; [|reflexivity]. cbn [option_map on_step fst snd]. rewrite !H_again, !removelast_nat, !add_nat.
  destruct (a_lt A tr tl); [destruct (t_add A (o_again o false q) tl (removelast r)); reflexivity|]. destruct (a_lt A tl tr); [destruct (t_add A (o_again o true p) tr (removelast l)); reflexivity|reflexivity].
Qed.
Lemma search_nat : forall n l r (sw first : bool), t_search A c o' n (m l) (m r) sw first = on_plan (t_search A c o n l r sw first).
Proof.
  intros n l r sw first. unfold t_search. rewrite pick2, last_nat. dl as prev. cbn [option_map].
  set (s0 := MkTS l r sw (c_init c) (a_q A (-1) 1) (a_q A 10000000000 1) (a_sub A (c_init c) (snd prev)) (if first then c_nom c else c0 A) prev).
  change (MkTS (m l) (m r) sw (c_init c) (a_q A (-1) 1) (a_q A 10000000000 1) (a_sub A (c_init c) (snd (g prev))) (if first then c_nom c else c0 A) (g prev)) with (on_st s0).
  rewrite run_nat. destruct (t_run A c o n s0) as [s| |]; try reflexivity. cbn [on_st t_sw t_left t_right].
  destruct (c_addTerm c).
  - rewrite terminal_nat. destruct (t_terminal A c o (t_sw s) (t_left s) (t_right s)) as [[l1 r1]| |]; try reflexivity. cbn [on_res on_pair fst snd]. rewrite !map_length.
    destruct (_ && _); [|reflexivity]. rewrite sync_nat. destruct (t_sync A c o l1 r1) as [[[l2 r2] sl]| |]; reflexivity.
  - rewrite !map_length. destruct (_ && _); [|reflexivity]. rewrite sync_nat. destruct (t_sync A c o (t_left s) (t_right s)) as [[[l2 r2] sl]| |]; reflexivity.
Qed.
Lemma feet_nat : forall l r, t_feet A c o' (m l) (m r) = option_map (fun x => (m (fst (fst (fst x))), m (snd (fst (fst x))), snd (fst x), snd x)) (t_feet A c o l r).
Proof.
  intros l r. unfold t_feet. rewrite !last_nat, H_point, H_lateral. destruct (last_opt l) as [a|], (last_opt r) as [b|]; cbn [option_map]; cbv zeta; change (forall x, snd (g x) = snd x) with (forall x, snd (g x) = snd x).
  - change (snd (g a)) with (snd a). change (snd (g b)) with (snd b). destruct (a_eq A (snd a) (snd b)); [|destruct (a_lt A (snd a) (snd b))]; destruct (_ || _); reflexivity.
  - change (snd (g a)) with (snd a). destruct (_ || _); reflexivity.
  - change (snd (g b)) with (snd b). destruct (_ || _); reflexivity.
  - destruct (o_point o); [|reflexivity]. cbn [option_map fst snd]. unfold t_keep. rewrite !H_first, !add_nat. destruct (t_add A (o_first o true) (c_init c) l), (t_add A (o_first o false) (c_init c) r); reflexivity.
Qed.
Theorem plan_nat : forall n l r, t_plan A c o' n (m l) (m r) = on_plan (t_plan A c o n l r).
Proof.
  intros n l r. unfold t_plan. rewrite H_checks, H_integ, feet_nat. destruct (negb (o_checks o)); [reflexivity|]. destruct (t_feet A c o l r) as [[[[l1 r1] sw] first]|]; [|reflexivity]. cbn [option_map fst snd].
  destruct (a_le A (c_end c) (c_init c)); [reflexivity|]. destruct (negb (o_integ o)); [reflexivity|]. apply search_nat.
Qed.
End Natural.

Open Scope R_scope.
Section ExactSteps.
Variables (c : plcfg) (e : planenv) (init tend : R) (lfp rfp : footprint).
Notation G := (exact_geo c e init tend lfp rfp).
Notation G' := (exact_steps c e init tend lfp rfp).
Notation fw := (foot_with c lfp rfp).
Notation sol := (exact_sol c e init lfp rfp).
Notation F := (exact_fields c).
Notation g := (on_step R pose (dpose R) exact_pose).
Notation m := (map (on_step R pose (dpose R) exact_pose)).
Definition vpair (v : vec2) : R * R := (vx v, vy v).

Lemma pair_add : forall a b, g_add reals (vpair a) (vpair b) = vpair (vadd a b). Proof. reflexivity. Qed.
Lemma pair_sub : forall a b, g_sub reals (vpair a) (vpair b) = vpair (vsub a b). Proof. reflexivity. Qed.
Lemma pair_rot : forall th v, g_rot reals exact_maths th (vpair v) = vpair (rot th v).
Proof. intros. unfold g_rot, rot, vpair. cbn. f_equal. ring. Qed.
Lemma pair_rotT : forall th v, g_rotT reals exact_maths th (vpair v) = vpair (rotT th v).
Proof. reflexivity. Qed.
Lemma pair_norm : forall v, g_norm reals exact_maths (vpair v) = sqrt (vx v * vx v + vy v * vy v).
Proof. intros. unfold g_norm, vpair. cbn [x_sqrt x_sqr exact_maths a_add reals fst snd]. f_equal. ring. Qed.
Lemma pair_dist : forall b x, g_dist reals exact_maths F b = vpair (ft_dist (fw b x)).
Proof. intros [] x; unfold g_dist, vpair; cbn; f_equal; unfold c0; cbn; field. Qed.
Lemma yaw_ok : forall b x, g_yaw F b = ft_yaw (fw b x).
Proof. intros [] x; reflexivity. Qed.
Lemma pos_ok : forall b x u, g_pos reals exact_maths F b (exact_state u) = vpair (vadd (u_pos u) (rot (u_angle u) (ft_dist (fw b x)))).
Proof. intros. unfold g_pos. rewrite (pair_dist b x). cbn [exact_state d_th]. rewrite pair_rot. reflexivity. Qed.
Lemma at_ok : forall p, g_at (exact_pose p) = vpair (fst (fst p)). Proof. reflexivity. Qed.
Lemma pose_ok : forall b u, g_pose reals exact_maths F b (exact_state u) = exact_pose (pose_at c lfp rfp b u).
Proof. intros b u. unfold g_pose. rewrite (pos_ok b []), (yaw_ok b []). reflexivity. Qed.
Lemma heading_ok : forall b x p, g_heading reals F b (exact_pose (fst p)) = ft_angleFromStep (fw b x) (join_step p).
Proof. intros. unfold g_heading, ft_angleFromStep. rewrite (yaw_ok b x). reflexivity. Qed.
Lemma heading_ok' : forall b x (p : pose), g_heading reals F b (exact_pose p) = snd (fst p) - ft_yaw (fw b x).
Proof. intros. unfold g_heading. rewrite (yaw_ok b x). reflexivity. Qed.
Lemma glast_ok : forall l : tfoot R pose, g_last (m l) = match last_opt l with Some x => Some (exact_pose (fst x)) | None => None end.
Proof. intros. unfold g_last. rewrite last_opt_map. destruct (last_opt l); reflexivity. Qed.
Lemma tiny_ok : forall b (l : tfoot R pose) u, g_tiny reals exact_maths F b (g_last (m l)) (exact_state u) = ft_isTiny u (fw b l).
Proof.
  intros b l u. unfold g_tiny, ft_isTiny. rewrite glast_ok. fold (ft_getLast (fw b l)). rewrite fw_last. destruct (last_opt l) as [x|]; [|reflexivity]. cbn [option_map].
  rewrite (pos_ok b l), (heading_ok b l), at_ok, pair_sub, pair_norm. reflexivity.
Qed.
Lemma inside_ok : forall el p, k_inside reals exact_maths (exact_ell el) (vpair p) = ell_inside el p.
Proof.
  intros el p. unfold k_inside, exact_ell, ell_inside. destruct (e_set el); [|reflexivity]. cbn [negb z_00 z_01 z_10 z_11 z_d]. unfold c1. cbn [a_q a_le a_mul a_add reals x_sqrt exact_maths g_sub a_sub vpair fst snd].
  replace (IZR 1 / IZR 1) with 1 by field. reflexivity.
Qed.
Lemma ok_ok : forall p rPl ang dt pos rel, k_ok reals exact_maths (exact_prob p) (MkDPt (vpair rPl) ang dt (vpair pos) (vpair rel)) = prob_feasible p (MkCand rPl ang dt pos rel).
Proof.
  intros. unfold k_ok, prob_feasible, maxLength_ok, minWidth_ok, maxAngle_ok, maxBack_ok, inEllipse_ok. cbn [exact_prob k_len k_width k_angle k_free k_back y_rPl y_ang y_pos y_rel c_rPl c_dAngle c_pos c_rel].
  rewrite !pair_norm, inside_ok. assert (E : Rleb (1 / 2) (if ell_inside (p_ell p) pos then 1 else 0) = ell_inside (p_ell p) pos) by (destruct (ell_inside (p_ell p) pos); rcases; auto; lra). rewrite E.
  assert (Z : c0 reals = 0) by (unfold c0; cbn; field). rewrite Z. destruct (p_maxLen p), (p_minWidth p), (p_maxAngle p), (p_maxBack p); reflexivity.
Qed.
Lemma cost_ok : forall p rPl ang dt pos rel, k_cost reals exact_maths (exact_prob p) (MkDPt (vpair rPl) ang dt (vpair pos) (vpair rel)) = prob_cost p (MkCand rPl ang dt pos rel).
Proof.
  intros. unfold k_cost, prob_cost. assert (Z : c1 reals = 1) by (unfold c1; cbn; field). rewrite Z. cbn [exact_prob k_timeW k_posW y_dt y_rPl a_add a_mul a_div reals x_sqr exact_maths vpair fst snd c_rPl c_dTime]. f_equal; f_equal; ring.
Qed.
Lemma point_ok : forall (sw : bool) (l r : tfoot R pose) u ang dt,
  match g_last (if sw then m r else m l) with
  | None => exact_point c lfp rfp sw l r u ang dt = None
  | Some x => exists cd, exact_point c lfp rfp sw l r u ang dt = Some cd
      /\ k_ok reals exact_maths (exact_prob (pl_prob c)) (g_point reals exact_maths F sw x (exact_state u) ang dt) = prob_feasible (pl_prob c) cd
      /\ k_cost reals exact_maths (exact_prob (pl_prob c)) (g_point reals exact_maths F sw x (exact_state u) ang dt) = prob_cost (pl_prob c) cd
  end.
Proof.
  intros sw l r u ang dt. unfold exact_point, get_rPl, get_rel. destruct sw; rewrite fw_last, glast_ok.
  - destruct (last_opt r) as [x|]; [|reflexivity]. cbn [option_map]. unfold ft_posFromUnicycle. cbn [ft_distSet foot_with pl_foot negb]. eexists. split; [reflexivity|].
    unfold g_point, g_rPl, g_rel. rewrite (pos_ok true l), at_ok, pair_sub. change (d_th (exact_pose (fst x))) with (snd (fst (fst x))). rewrite pair_rotT. split; [apply ok_ok|apply cost_ok].
  - destruct (last_opt l) as [x|]; [|reflexivity]. cbn [option_map]. unfold ft_posFromUnicycle. cbn [ft_distSet foot_with pl_foot negb]. eexists. split; [reflexivity|].
    unfold g_point, g_rPl, g_rel. rewrite (pos_ok false r), at_ok, !pair_sub. change (d_th (exact_pose (fst x))) with (snd (fst (fst x))). change (d_th (exact_state u)) with (u_angle u). rewrite !pair_rotT. split; [apply ok_ok|apply cost_ok].
Qed.
Theorem steps_exact : forall n l r, t_plan reals (exact_cfg c init tend) G' n (m l) (m r) = on_plan R pose (dpose R) exact_pose (t_plan reals (exact_cfg c init tend) G n l r).
Proof.
  intros n l r. apply plan_nat; try reflexivity.
  - intros b. cbn [exact_steps step_geo o_first exact_geo]. rewrite pose_ok. reflexivity.
  - intros sw l0 r0 t. cbn [exact_steps step_geo o_tiny exact_geo]. destruct sw; apply tiny_ok.
  - intros sw l0 r0 p t dt. cbn [exact_steps step_geo o_cand exact_geo]. change (fst (g p)) with (exact_pose (fst p)).
    rewrite (heading_ok (negb sw) (if sw then r0 else l0)). change (d_th (exact_state (sol t))) with (u_angle (sol t)). cbn [a_abs a_sub reals]. cbv zeta.
    pose proof (point_ok sw l0 r0 (sol t) (Rabs (ft_angleFromStep (fw (negb sw) (if sw then r0 else l0)) (join_step p) - u_angle (sol t))) dt) as K.
    destruct (g_last (if sw then m r0 else m l0)) as [x|]; [|rewrite K; reflexivity]. destruct K as (cd & K1 & K2 & K3). rewrite K1, K2, K3. reflexivity.
  - intros sw l0 r0 t. cbn [exact_steps step_geo o_pose exact_geo option_map]. rewrite pose_ok. reflexivity.
  - intros sw l0 r0 p. cbn [exact_steps step_geo o_still exact_geo]. change (fst (g p)) with (exact_pose (fst p)). unfold ft_stateFromStep. cbn [ft_distSet foot_with pl_foot negb].
    set (st := foot_with c lfp rfp (negb sw) (if sw then r0 else l0)).
    assert (E : g_state reals exact_maths F (negb sw) (exact_pose (fst p)) = exact_state (MkU (vsub (st_pos (join_step p)) (rot (ft_angleFromStep st (join_step p)) (ft_dist st))) (ft_angleFromStep st (join_step p)))).
    { unfold g_state. rewrite (heading_ok (negb sw) (if sw then r0 else l0)), (pair_dist (negb sw) (if sw then r0 else l0)), at_ok, pair_rot, pair_sub. reflexivity. }
    rewrite E. f_equal. destruct sw; apply tiny_ok.
  - intros sw l0 r0. cbn [exact_steps step_geo o_par exact_geo].
    assert (E : g_last (if sw then m r0 else m l0) = match last_opt (if sw then r0 else l0) with Some x => Some (exact_pose (fst x)) | None => None end) by (destruct sw; apply glast_ok).
    rewrite E. destruct (last_opt (if sw then r0 else l0)) as [x|]; [|reflexivity]. cbn [option_map]. cbv zeta. f_equal. unfold g_next.
    rewrite (heading_ok (negb sw) (if sw then r0 else l0)), (pair_dist sw (if sw then l0 else r0)), (pair_dist (negb sw) (if sw then r0 else l0)), at_ok, pair_sub, pair_rot, pair_add, (yaw_ok sw (if sw then l0 else r0)). reflexivity.
  - intros sw l0 r0 p dt. cbn [exact_steps step_geo o_term exact_geo]. change (fst (g p)) with (exact_pose (fst p)).
    rewrite (heading_ok (negb sw) (if sw then r0 else l0)). change (d_th (exact_state (sol tend))) with (u_angle (sol tend)). cbn [a_abs a_sub reals]. cbv zeta.
    pose proof (point_ok sw l0 r0 (sol tend) (Rabs (u_angle (sol tend) - ft_angleFromStep (fw (negb sw) (if sw then r0 else l0)) (join_step p))) dt) as K.
    assert (E1 : g_tiny reals exact_maths F (negb sw) (g_last (if sw then m r0 else m l0)) (exact_state (sol tend)) = ft_isTiny (sol tend) (fw (negb sw) (if sw then r0 else l0))) by (destruct sw; apply tiny_ok).
    assert (E2 : g_tiny reals exact_maths F sw (g_last (if sw then m l0 else m r0)) (exact_state (sol tend)) = ft_isTiny (sol tend) (fw sw (if sw then l0 else r0))) by (destruct sw; apply tiny_ok).
    rewrite E1, E2. destruct (g_last (if sw then m r0 else m l0)) as [x|]; [|rewrite K; reflexivity]. destruct K as (cd & K1 & K2 & K3). rewrite K1, K2. reflexivity.
Qed.
End ExactSteps.
