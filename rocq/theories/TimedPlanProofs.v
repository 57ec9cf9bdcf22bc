(** The exact planner is an instance of TimedPlan.v. *)
From Coq Require Import String Reals ZArith List Bool Lia Lra.
From Verif Require Import Doubles DoublesSpec DoublesProofs3 Prelude FootPrint UnicycleFoot Ellipse Optimization PlannerSearch Planner TimedPlan TimedPlanSpec.
Import ListNotations.
Open Scope R_scope.

Lemma last_opt_map : forall {X Y : Type} (f : X -> Y) l, last_opt (map f l) = option_map f (last_opt l).
Proof. induction l as [|a [|b l] IH]; auto. Qed.
Lemma removelast_map' : forall {X Y : Type} (f : X -> Y) l, removelast (map f l) = map f (removelast l).
Proof. induction l as [|a [|b l] IH]; auto. cbn [map removelast] in *. rewrite IH. reflexivity. Qed.
Lemma join_split : forall s, join_step (split_step s) = s.
Proof. intros []. reflexivity. Qed.
Lemma joins_splits : forall l, map join_step (map split_step l) = l.
Proof. intros l. rewrite map_map. rewrite <- (map_id l) at 2. apply map_ext, join_split. Qed.

Section Exact.
Variables (c : plcfg) (e : planenv) (init tend : R) (lfp rfp : footprint).
Notation cfg := (exact_cfg c init tend).
Notation G := (exact_geo c e init tend lfp rfp).
Notation fw := (foot_with c lfp rfp).
Notation sol := (exact_sol c e init lfp rfp).

Lemma fw_last : forall b x, ft_getLast (fw b x) = option_map join_step (last_opt x).
Proof. intros. unfold ft_getLast, fp_getLast, foot_with. cbn. apply last_opt_map. Qed.
Lemma below_reals : forall t, below0 reals t = Rltb t 0.
Proof. intros. unfold below0. rewrite c0_reals. reflexivity. Qed.
Lemma fw_add : forall b x u t,
  ft_addFromUnicycle u t (fw b x) = match t_add reals (pose_at c lfp rfp b u) t x with Some y => (fw b y, true) | None => (fw b x, false) end.
Proof.
  intros b x u t. unfold ft_addFromUnicycle, t_add. rewrite below_reals. cbn [ft_distSet foot_with pl_foot negb].
  unfold fp_addStep. cbn [ft_fp foot_with pl_foot fp_name fp_steps]. destruct (Rltb t 0).
  - unfold foot_with, pl_foot. reflexivity.
  - unfold foot_with, pl_foot, ft_withFP, pose_at. cbn. rewrite map_app. reflexivity.
Qed.
Lemma fw_par : forall sw l r t,
  ft_addParallel (fw (negb sw) (if sw then r else l)) t (fw sw (if sw then l else r))
  = match o_par G sw l r with
    | None => (fw sw (if sw then l else r), false)
    | Some p => match t_add reals p t (if sw then l else r) with Some y => (fw sw y, true) | None => (fw sw (if sw then l else r), false) end
    end.
Proof.
  intros sw l r t. unfold ft_addParallel, t_add. rewrite below_reals. rewrite fw_last. cbn [o_par exact_geo].
  destruct sw; cbn [negb];
  [destruct (last_opt r) as [x|]|destruct (last_opt l) as [x|]]; cbn [option_map]; try (destruct (Rltb t 0); reflexivity);
  unfold fp_addStep; (destruct (Rltb t 0) eqn:E; [reflexivity|]);
  unfold foot_with, pl_foot, ft_withFP; cbn; rewrite map_app; reflexivity.
Qed.

(** States of the two searches. *)
Definition rel (s : sst) (x : tst R pose) : Prop :=
  s_left s = fw true (t_left x) /\ s_right s = fw false (t_right x) /\ s_swingLeft s = t_sw x /\ s_t s = t_t x
  /\ s_tOpt s = t_opt x /\ s_minCost s = t_minCost x /\ s_pause s = t_pause x /\ s_offset s = t_off x
  /\ s_prev s = join_step (t_prev x).
Notation C := (pl_search c init tend sol).

Lemma rel_swing : forall s x, rel s x -> swingOf s = fw (t_sw x) (if t_sw x then t_left x else t_right x).
Proof. intros s x (A1 & A2 & A3 & _). unfold swingOf. rewrite A1, A2, A3. destruct (t_sw x); reflexivity. Qed.
Lemma rel_stance : forall s x, rel s x -> stanceOf s = fw (negb (t_sw x)) (if t_sw x then t_right x else t_left x).
Proof. intros s x (A1 & A2 & A3 & _). unfold stanceOf. rewrite A1, A2, A3. destruct (t_sw x); reflexivity. Qed.

(** Results of the two searches. *)
Definition rrel (a : res sst) (b : res (tst R pose)) : Prop :=
  match a, b with Ok s, Ok x => rel s x | Fail, Fail => True | UB, UB => True | _, _ => False end.
Lemma rrel_bind : forall a b f g, rrel a b -> (forall s x, rel s x -> rrel (f s) (g x)) -> rrel (rbind a f) (rbind b g).
Proof. intros [s| |] [x| |] f g H K; simpl in *; try contradiction; auto. Qed.

Lemma set_rel : forall s x f, rel s x ->
  set_swing s (fw (t_sw x) f) = (fw true (if t_sw x then f else t_left x), fw false (if t_sw x then t_right x else f)).
Proof. intros s x f (A1 & A2 & A3 & _). unfold set_swing. rewrite A3, A1, A2. destruct (t_sw x); reflexivity. Qed.
Lemma step_swing : forall (x : tst R pose) (p : pose) t, t_step reals (t_sw x) (t_left x) (t_right x) p t
  = match t_add reals p t (if t_sw x then t_left x else t_right x) with
    | Some y => Some (if t_sw x then y else t_left x, if t_sw x then t_right x else y)
    | None => None
    end.
Proof. intros x p t. unfold t_step. destruct (t_sw x); destruct (t_add _ _ _ _); reflexivity. Qed.

Lemma best_rel : forall s x, rel s x -> rrel (place_best C s) (t_best reals G x).
Proof.
  intros s x H. unfold place_best, t_best. cbn [o_pose exact_geo]. rewrite step_swing. rewrite (rel_swing s x H), fw_add.
  pose proof H as H0. destruct H0 as (A1 & A2 & A3 & A4 & A5 & A6 & A7 & A8 & A9). rewrite A5. cbn [pl_search g_sol].
  destruct (t_add _ _ _ _) as [y|]; cbn [negb]; [|exact Logic.I].
  rewrite (set_rel s x y H). unfold rrel, rel. cbn. rewrite ?c0_reals. repeat split; auto; try congruence; lra.
Qed.
Lemma parallel_rel : forall s x, rel s x -> rrel (place_parallel C s) (t_parallel reals G x).
Proof.
  intros s x H. unfold place_parallel, t_parallel. rewrite (rel_stance s x H), (rel_swing s x H).
  pose proof H as H0. destruct H0 as (A1 & A2 & A3 & A4 & A5 & A6 & A7 & A8 & A9). cbn [o_still exact_geo]. rewrite A9.
  destruct (ft_stateFromStep _ _) as [u|]; [|exact Logic.I].
  destruct (negb (ft_isTiny u _)).
  - rewrite fw_par, A4. destruct (o_par G _ _ _) as [p|]; [|exact Logic.I]. rewrite step_swing.
    destruct (t_add _ _ _ _) as [y|]; cbn [negb]; [|exact Logic.I].
    rewrite (set_rel s x y H). unfold rrel, rel. cbn. rewrite ?c0_reals. repeat split; auto; try congruence; lra.
  - unfold rrel, rel. cbn. repeat split; auto. rewrite A4. reflexivity.
Qed.
Lemma refresh_rel : forall s x, rel s x -> rrel (refresh_prev s) (t_refresh x).
Proof.
  intros s x H. unfold refresh_prev, t_refresh. rewrite (rel_stance s x H), fw_last. unfold t_stance.
  destruct H as (A1 & A2 & A3 & A4 & A5 & A6 & A7 & A8 & A9).
  destruct (last_opt _) as [p|]; cbn [option_map]; [|exact Logic.I]. unfold rrel, rel. cbn. auto 10.
Qed.
Lemma try_rel : forall s x dt, rel s x ->
  rrel (try_sample C s (sol (s_t s)) (Rabs (ft_angleFromStep (stanceOf s) (s_prev s) - u_angle (sol (s_t s)))) dt) (t_try reals G x dt).
Proof.
  intros s x dt H. unfold try_sample, t_try. rewrite (rel_stance s x H), (rel_swing s x H).
  pose proof H as H0. destruct H0 as (A1 & A2 & A3 & A4 & A5 & A6 & A7 & A8 & A9). rewrite A1, A2, A3, A4, A9.
  cbn [o_cand exact_geo]. unfold exact_point.
  destruct (get_rPl _ _ _ _) as [rPl|]; [|exact Logic.I]. destruct (get_rel _ _ _ _) as [re|]; [|exact Logic.I].
  destruct (ft_posFromUnicycle _ _) as [pos|]; [|exact Logic.I].
  rewrite c0_reals. cbn [a_lt a_le reals]. unfold Rgtb. cbn [pl_search g_prob]. rewrite A5, A6.
  destruct (Rltb 0 dt); cbn [andb]; [|exact H]. destruct (prob_feasible _ _); [|exact H].
  destruct (Rltb (t_opt x) 0 || Rleb _ _); [|exact H]. unfold rrel, rel. cbn. auto 10.
Qed.
Lemma body_rel : forall s x, rel s x -> rrel (body C s) (t_body reals cfg G x).
Proof.
  intros s x H. unfold body, t_body. pose proof H as H0. destruct H0 as (A1 & A2 & A3 & A4 & A5 & A6 & A7 & A8 & A9).
  cbn [pl_search g_sol g_minT g_init g_maxT g_end g_dT]. cbn [exact_cfg c_min c_init c_max c_end c_dT]. cbn [a_sub a_le a_lt a_add a_eq reals].
  unfold Rgeb, Rgtb. cbn [o_tiny exact_geo].
  pose proof (try_rel s x (s_t s - st_time (s_prev s) - s_pause s) H) as T.
  rewrite (rel_swing s x H). rewrite A4, A7, A8 in *. rewrite A5. rewrite A9 in *. cbn [join_step st_time] in *. rewrite c0_reals.
  destruct (Rleb _ _ && Rltb _ _); [|exact H]. destruct (negb (ft_isTiny _ _)).
  - destruct (Rltb _ _ || Reqb _ _); [|exact T].
    apply rrel_bind; [destruct (Rltb 0 _); [apply best_rel|apply parallel_rel]; auto|]. intros; apply refresh_rel; auto.
  - unfold rrel, rel. cbn. auto 10.
Qed.
Lemma iter_rel : forall s x, rel s x -> rrel (iter1 C s) (t_iter reals cfg G x).
Proof.
  intros s x H. unfold iter1, t_iter. apply rrel_bind; [apply body_rel; auto|].
  intros s1 x1 (A1 & A2 & A3 & A4 & A5 & A6 & A7 & A8 & A9). unfold rrel, rel, set_t. cbn. rewrite A4. repeat split; auto.
Qed.
Lemma run_rel : forall fuel s x, rel s x ->
  match run_loop C fuel s, t_run reals cfg G fuel x with
  | LDone s', TLDone x' => rel s' x'
  | LFail, TLFail => True
  | LFuel, TLFuel => True
  | _, _ => False
  end.
Proof.
  induction fuel as [|fuel IH]; intros s x H; pose proof H as (_ & _ & _ & A4 & _); cbn [run_loop t_run];
  cbn [pl_search g_end exact_cfg c_end a_le reals]; rewrite A4; destruct (Rleb (t_t x) tend); auto.
  pose proof (iter_rel s x H) as K. destruct (iter1 C s), (t_iter reals cfg G x); simpl in K; try contradiction; auto.
  apply (IH _ _ K).
Qed.
Lemma max_if : forall a b, (if Rltb a b then b else a) = Rmax a b.
Proof. intros. rcases; unfold Rmax; destruct (Rle_dec _ _); lra. Qed.
Lemma terminal_rel : forall sw l r,
  terminal_step C sw (fw true l) (fw false r) (sol tend)
  = match t_terminal reals cfg G sw l r with Ok (a, b) => Ok (fw true a, fw false b) | Fail => Fail | UB => UB end.
Proof.
  intros sw l r. unfold terminal_step, t_terminal.
  pose proof (fw_par sw l r) as FP.
  destruct sw; cbn [negb] in FP; rewrite fw_last; [destruct (last_opt r) as [prev|] eqn:EP|destruct (last_opt l) as [prev|] eqn:EP];
  cbn [option_map]; try reflexivity;
  cbn [o_term exact_geo]; unfold exact_point; cbn [pl_search g_init g_nomT g_prob exact_cfg c_init c_nom c_end a_add a_lt a_sub reals negb];
  (destruct (get_rPl _ _ _ _) as [rPl|]; [|reflexivity]); (destruct (get_rel _ _ _ _) as [re|]; [|reflexivity]);
  (destruct (ft_posFromUnicycle _ _) as [pos|]; [|reflexivity]);
  cbn [join_step st_time]; rewrite !max_if; set (st := Rmax _ _);
  destruct (prob_feasible _ _ && _ && _).
  1,3: rewrite fw_add; cbn [o_pose exact_geo]; unfold t_step;
    (destruct (t_add _ _ st _) as [l1|]; [|reflexivity]); cbn [negb]; rewrite fw_add; destruct (t_add _ _ _ _); reflexivity.
  all: cbn [o_still exact_geo negb]; (destruct (ft_stateFromStep _ _) as [u|]; [|reflexivity]);
    (destruct (negb (ft_isTiny u _)); [|reflexivity]);
    rewrite FP; (destruct (o_par G _ l r) as [p|]; [|reflexivity]); unfold t_step; destruct (t_add _ _ _ _); reflexivity.
Qed.
Lemma sync_rel : forall l r,
  sync_feet (ft_fp (fw true l)) (ft_fp (fw false r)) (pl_reset c) (pl_startLeft c)
  = match t_sync reals cfg G l r with
    | Ok (a, b, sl) => Ok (ft_fp (fw true a), ft_fp (fw false b), sl) | Fail => Fail | UB => UB end.
Proof.
  intros l r. unfold sync_feet, t_sync. unfold fp_getLast. cbn [ft_fp foot_with pl_foot fp_steps]. rewrite !last_opt_map.
  destruct (last_opt l) as [[p tl]|] eqn:EL; cbn [option_map]; [|reflexivity].
  destruct (last_opt r) as [[q tr]|] eqn:ER; cbn [option_map]; [|reflexivity].
  cbn [join_step st_time snd]. unfold Rgtb. cbn [a_lt reals exact_cfg c_reset c_startLeft].
  assert (K : forall b p t x, fst (fp_addStep (fst (fst p)) (snd (fst p)) t (fp_clearLast (MkFP (map join_step x) (fp_name (if b : bool then lfp else rfp)))))
    = ft_fp (fw b (match t_add reals (o_again G b p) t (removelast x) with Some y => y | None => removelast x end)) \/ x = []).
  { intros b p' t x. destruct x as [|x0 x1]; [auto|left]. set (x := x0 :: x1).
    unfold fp_clearLast, fp_number. cbn [fp_steps]. rewrite map_length. replace (Nat.eqb (List.length x) 0) with false by reflexivity.
    unfold fp_addStep, t_add. rewrite below_reals. cbn [fp_name fp_steps]. rewrite removelast_map'.
    destruct (Rltb t 0); cbn [fst]; unfold foot_with, pl_foot; cbn [ft_fp]; [reflexivity|]. rewrite map_app. reflexivity. }
  destruct (Rltb tr tl).
  - destruct (K false q tl r) as [K1|K1]; [|subst; discriminate]. cbn [st_pos st_angle fst snd] in *.
    destruct (fp_addStep _ _ _ _) as (r' & ok). cbn [fst] in K1. rewrite K1. reflexivity.
  - destruct (Rltb tl tr); [|reflexivity].
    destruct (K true p tr l) as [K1|K1]; [|subst; discriminate]. cbn [st_pos st_angle fst snd] in *.
    destruct (fp_addStep _ _ _ _) as (l' & ok). cbn [fst] in K1. rewrite K1. reflexivity.
Qed.

(** Results of planning. *)
Definition exact_result (x : tres R pose) : pres :=
  match x with TDone l r sw sl => PDone (fw true l) (fw false r) sw sl | TFail => PFail | TUB => PUB | TFuel => PFuel end.
Lemma fw_number : forall b x, ft_number (fw b x) = List.length x.
Proof. intros. unfold ft_number, fp_number, foot_with. cbn. apply map_length. Qed.
Lemma search_rel : forall fuel l r sw first,
  search_steps C fuel (pl_addTerm c) (pl_reset c) (fw true l) (fw false r) sw first (pl_startLeft c)
  = exact_result (t_search reals cfg G fuel l r sw first).
Proof.
  intros fuel l r sw first. unfold search_steps, t_search.
  assert (HL : ft_getLast (if sw then fw false r else fw true l) = match last_opt (if sw then r else l) with Some p => Some (join_step p) | None => None end).
  { destruct sw; rewrite fw_last; destruct (last_opt _); reflexivity. }
  rewrite HL. destruct (last_opt (if sw then r else l)) as [prev|]; [|reflexivity].
  set (s0 := MkS _ _ _ _ _ _ _ _ _ _). set (x0 := MkTS _ _ _ _ _ _ _ _ _).
  assert (H0 : rel s0 x0).
  { subst s0 x0. unfold rel. cbn. repeat split; auto; try lra. destruct first; auto; lra. }
  pose proof (run_rel fuel s0 x0 H0) as K.
  destruct (run_loop C fuel s0) as [s| |], (t_run reals cfg G fuel x0) as [x| |]; try contradiction; try reflexivity.
  destruct K as (A1 & A2 & A3 & _). rewrite A1, A2, A3. cbn [exact_cfg c_addTerm pl_search g_sol g_end].
  assert (T : (if pl_addTerm c then terminal_step C (t_sw x) (fw true (t_left x)) (fw false (t_right x)) (sol tend)
               else Ok (fw true (t_left x), fw false (t_right x)))
              = match (if pl_addTerm c then t_terminal reals cfg G (t_sw x) (t_left x) (t_right x) else Ok (t_left x, t_right x)) with
                | Ok (a, b) => Ok (fw true a, fw false b) | Fail => Fail | UB => UB end).
  { destruct (pl_addTerm c); [apply terminal_rel|reflexivity]. }
  rewrite T. destruct (if pl_addTerm c then t_terminal reals cfg G (t_sw x) (t_left x) (t_right x) else Ok (t_left x, t_right x)) as [(a & b)| |]; try reflexivity.
  rewrite !fw_number. destruct (_ && _); [|reflexivity]. rewrite sync_rel.
  destruct (t_sync reals cfg G a b) as [((a2 & b2) & sl)| |]; reflexivity.
Qed.

Lemma fw_self : forall b, fw b (map split_step (fp_steps (if b then lfp else rfp))) = pl_foot c b (if b then lfp else rfp).
Proof. intros b. unfold foot_with. rewrite joins_splits. destruct (if b then lfp else rfp). reflexivity. Qed.
Lemma keep_rel : forall b x u t, fst (ft_addFromUnicycle u t (fw b x)) = fw b (t_keep reals (pose_at c lfp rfp b u) t x).
Proof. intros. rewrite fw_add. unfold t_keep. destruct (t_add _ _ _ _); reflexivity. Qed.
Lemma feet_rel :
  match exact_init c e init lfp rfp, t_feet reals cfg G (map split_step (fp_steps lfp)) (map split_step (fp_steps rfp)) with
  | Some i, Some (l, r, sw, first) => i_left i = fw true l /\ i_right i = fw false r /\ i_swingLeft i = sw /\ i_first i = first
  | None, None => True
  | _, _ => False
  end.
Proof.
  unfold exact_init, init_state, feet_state, t_feet.
  rewrite <- (fw_self true), <- (fw_self false). cbn [negb]. rewrite !fw_last.
  set (L := map split_step (fp_steps lfp)). set (Q := map split_step (fp_steps rfp)).
  cbn [exact_cfg c_init c_nom c_min c_startLeft a_lt a_add a_sub a_eq reals]. rewrite !below_reals.
  destruct (last_opt L) as [[p tl]|] eqn:EL; destruct (last_opt Q) as [[q tr]|] eqn:EQ; cbn [option_map join_step st_time snd].
  - destruct (Reqb tl tr).
    + destruct (pl_startLeft c); cbn; destruct (_ || _ || _); auto; repeat split; destruct (pl_ctrl c); auto; destruct (Rgtb _ _); auto.
    + destruct (Rltb tl tr); cbn; destruct (_ || _ || _); auto; repeat split; destruct (pl_ctrl c); auto.
  - cbn. destruct (_ || _ || _); auto; repeat split; destruct (pl_ctrl c); auto.
  - cbn. destruct (_ || _ || _); auto; repeat split; destruct (pl_ctrl c); auto.
  - cbn [o_point o_first o_lateral exact_geo].
    destruct (pl_ctrl c); [destruct (v_point e) as [pt|]; [|exact Logic.I]|..];
    cbn [i_first i_left i_right i_swingLeft i_state andb]; rewrite !keep_rel; repeat split; destruct (Rgtb _ _); auto.
Qed.

Theorem plan_exact : forall fuel, compute_new_steps c e fuel lfp rfp init tend
  = exact_result (t_plan reals cfg G fuel (map split_step (fp_steps lfp)) (map split_step (fp_steps rfp))).
Proof.
  intros fuel. unfold compute_new_steps, t_plan. cbn [o_checks o_integ exact_geo].
  destruct (Rgtb (pl_nomWidth c) (pl_maxLen c)); [reflexivity|]. destruct (Rgtb (pl_nomWidth c) (pl_maxBack c)); [reflexivity|].
  destruct (Rgeb _ _); [reflexivity|]. destruct (v_satOk e); [|reflexivity]. cbn [negb andb].
  unfold init_planner. fold (exact_init c e init lfp rfp). pose proof feet_rel as F.
  destruct (exact_init c e init lfp rfp) as [i|] eqn:EI;
  destruct (t_feet reals cfg G _ _) as [(((l & r) & sw) & first)|]; try contradiction; [|reflexivity].
  destruct F as (F1 & F2 & F3 & F4). cbn [exact_cfg c_end c_init a_le reals].
  destruct (v_integ e (i_state i)) as [so|] eqn:EV; cbn [negb]; destruct (Rleb tend init); try reflexivity.
  rewrite F1, F2, F3, F4. rewrite <- search_rel.
  assert (E : forall t, so t = sol t) by (intros t; unfold exact_sol, exact_integ; rewrite EI, EV; reflexivity).
  assert (E2 : so = sol). { unfold exact_sol, exact_integ. rewrite EI, EV. reflexivity. }
  rewrite E2. reflexivity.
Qed.
End Exact.
