(** Concrete planning runs, used as examples and counterexamples. *)
From Coq Require Import Reals Lra Lia String List Bool.
From Verif Require Import Prelude EvalTac FootPrint FootPrintSpec UnicycleFoot Ellipse Optimization PlannerSearch Planner FootSpec PlannerSpec PlannerProofs3 PlannerConfigSpec PlannerProofs5.
Import ListNotations.
Open Scope R_scope.

(** Disc of radius 1 around (1,1). *)
Definition disc : ell := MkEll (M2 1 0 0 1) (M2 1 0 0 1) (V2 1 1) 1 1 0 true.
Definition straight : R -> ustate := fun t => MkU (V2 t 0) 0.
Definition denv : planenv := MkEnv true None vzero 0 (fun _ => Some straight).

Definition demo_ops : list plop :=
  [PlMaxLen1 10; PlWidth 0 2; PlPeriod 1; PlController CDirect; PlMethod FsFootsteps; PlEll disc].
Definition demo_prob : problem := MkProb (Some 10) (Some 10) (Some 0) (Some (deg2rad 45)) disc 1 (5/2).
Definition demo_cfg : plcfg :=
  MkPl 3 10 4 1 (deg2rad 5) 2 10 10 (5 / 100) (deg2rad 45) true true false 0 0 (9 / 10) (7 / 10) CDirect FsFootsteps
       (1 / 100) (1 / 100) demo_prob.

Lemma run_maxLen : forall ml c, 0 <= ml -> pl_run c (PlMaxLen1 ml)
  = pl_withLens ml ml (pl_withProb (MkProb (Some ml) (Some ml) (p_minWidth (pl_prob c)) (p_maxAngle (pl_prob c)) (p_ell (pl_prob c)) (p_posW (pl_prob c)) (p_timeW (pl_prob c))) c).
Proof. intros ml c H. unfold pl_run, pl_call, pl_setMaxLen1, prob_setMaxLen, prob_setMaxBack. rewrite (rltb_f ml 0) by lra. reflexivity. Qed.
Lemma run_width : forall a b c, 0 <= a <= b -> pl_run c (PlWidth a b)
  = pl_withWidth b (pl_minLen c) (pl_withProb (MkProb (p_maxLen (pl_prob c)) (p_maxBack (pl_prob c)) (Some a) (p_maxAngle (pl_prob c)) (p_ell (pl_prob c)) (p_posW (pl_prob c)) (p_timeW (pl_prob c))) c).
Proof. intros a b c H. unfold pl_run, pl_call, pl_setWidth, prob_setMinWidth. rewrite (rltb_f b 0), (rltb_f b a), (rltb_f a 0) by lra. reflexivity. Qed.
Lemma run_period : forall d c, 0 <= d -> pl_run c (PlPeriod d) = pl_withTimes (pl_minT c) (pl_maxT c) (pl_nomT c) d c.
Proof. intros d c H. unfold pl_run, pl_call, pl_setPeriod. rewrite (rltb_f d 0) by lra. reflexivity. Qed.
Lemma run_timings : forall a b n c, 0 <= a -> a <= n -> n <= b -> pl_run c (PlTimings a b n) = pl_withTimes a b n (pl_dT c) c.
Proof. intros a b n c H1 H2 H3. unfold pl_run, pl_call, pl_setTimings, Rgtb.
  rewrite (rltb_f a 0), (rltb_f b 0), (rltb_f n 0), (rltb_f b a), (rltb_f n a), (rltb_f b n) by lra. reflexivity. Qed.

Lemma new_explicit : pl_new = MkPl 3 10 4 (1 / 100) (deg2rad 5) (14 / 100) (2 / 10) (2 / 10) (5 / 100) (deg2rad 45)
       true true false 0 0 (9 / 10) (7 / 10) CPerson FsReference (1 / 100) (1 / 100)
       (MkProb (Some (2/10)) None (Some (8/100)) (Some (deg2rad 45)) ell_clear 1 (5/2)).
Proof.
  destruct new_fields as (A & B & C & D & E & F & G).
  assert (E2 : pl_prob pl_new = MkProb (Some (2/10)) None (Some (8/100)) (Some (deg2rad 45)) ell_clear 1 (5/2)).
  { destruct (pl_prob pl_new); simpl in *. congruence. }
  rewrite <- E2. reflexivity.
Qed.

Lemma demo_cfg_ok : pl_history demo_ops = demo_cfg.
Proof.
  unfold pl_history, demo_ops. cbn [fold_left]. rewrite new_explicit.
  rewrite run_maxLen, run_width, run_period by lra. reflexivity.
Qed.

Ltac rn := cbv beta iota zeta delta [pl_foot ft_fp ft_distSet ft_dist ft_yaw ft_minStep ft_minAngle fp_steps fp_name fp_new fp_getLast ft_getLast ft_withFP
  last_opt app negb andb orb fst snd rbind vx vy u_pos u_angle st_pos st_angle st_time st_name
  g_init g_end g_minT g_maxT g_nomT g_dT g_prob g_sol pl_search straight
  s_left s_right s_swingLeft s_first s_t s_tOpt s_minCost s_pause s_offset s_prev stanceOf swingOf set_t set_swing
  pl_minT pl_maxT pl_nomT pl_dT pl_minAngle pl_nomWidth pl_maxLen pl_maxBack pl_minLen pl_maxAngle pl_addTerm pl_startLeft pl_reset
  pl_leftYaw pl_rightYaw pl_linFac pl_angFac pl_ctrl pl_method pl_intStep pl_navStep pl_prob demo_cfg demo_prob
  v_satOk v_point v_person v_lateral v_integ denv p_maxLen p_maxBack p_minWidth p_maxAngle p_ell p_posW p_timeW
  i_left i_right i_swingLeft i_first i_state vadd vsub vzero rot rotT ub_ok lb_ok c_rPl c_dAngle c_dTime c_pos c_rel cand_of
  ft_angleFromStep Rgtb Rgeb].
Ltac rv := repeat (rn; first [ev1 | rewrite cos_0 | rewrite sin_0 | progress rn]).

Definition lfoot (fp : footprint) : foot := MkFoot fp true (V2 0 1) 0 (5/100) (deg2rad 5).
Definition rfoot (fp : footprint) : foot := MkFoot fp true (V2 0 (-1)) 0 (5/100) (deg2rad 5).
Definition nm : string := "footprint".
Definition L0 : footprint := MkFP [MkStep (V2 0 1) 0 0 nm] nm.
Definition R0 : footprint := MkFP [MkStep (V2 0 (-1)) 0 0 nm] nm.

Lemma demo_init : init_planner demo_cfg denv 0 1 fp_new fp_new
  = Some (MkInit (lfoot L0) (rfoot R0) true true (MkU vzero 0), straight).
Proof.
  unfold init_planner, init_state, feet_state, ft_addFromUnicycle, fp_addStep, Rgtb. rn.
  rewrite cos_0, sin_0. rv. unfold lfoot, rfoot, L0, R0, nm, vzero.
  req.
Qed.

Definition dcfg := pl_search demo_cfg 0 1 straight.
Definition s_at (t : R) : sst := MkS (lfoot L0) (rfoot R0) true true t (-1) (10 ^ 10) 0 4 (MkStep (V2 0 (-1)) 0 0 nm).

Lemma demo_loop : run_loop dcfg 5 (s_at 0) = LDone (s_at 2).
Proof.
  assert (E1 : iter1 dcfg (s_at 0) = Ok (s_at 1)).
  { unfold iter1, body, Rgeb, Rgtb, s_at, dcfg, advance. rv. unfold Rgtb. rv. unfold s_at. req. }
  assert (E2 : iter1 dcfg (s_at 1) = Ok (s_at 2)).
  { unfold iter1, body, Rgeb, Rgtb, s_at, dcfg, advance. rv. unfold Rgtb. rv. unfold s_at. req. }
  cbn [run_loop]. rewrite E1, E2. 
  change (g_end dcfg) with 1. change (s_t (s_at 0)) with 0. change (s_t (s_at 1)) with 1. change (s_t (s_at 2)) with 2.
  repeat ev1. reflexivity.
Qed.

Definition L1 : footprint := MkFP [MkStep (V2 0 1) 0 0 nm; MkStep (V2 1 1) 0 4 nm] nm.
Definition R1 : footprint := MkFP [MkStep (V2 0 (-1)) 0 0 nm; MkStep (V2 1 (-1)) 0 8 nm] nm.

Lemma demo_terminal : terminal_step dcfg true (lfoot L0) (rfoot R0) (straight 1) = Ok (lfoot L1, rfoot R1).
Proof.
  pose proof PI_RGT_0 as HPI.
  assert (H5 : 0 < deg2rad 5 < deg2rad 45) by (unfold deg2rad; lra).
  assert (HM : Rmax (0 + 4) (0 + 4) = 4) by (unfold Rmax; destruct (Rle_dec _ _); lra).
  unfold terminal_step, get_rPl, get_rel, ft_posFromUnicycle, ft_isTiny, ft_stateFromStep, lfoot, rfoot, L0, R0, dcfg. rn.
  rewrite cos_0, sin_0, HM.
  unfold prob_feasible, maxLength_ok, minWidth_ok, maxAngle_ok, inEllipse_ok, maxBack_ok, Rgtb. rn.
  repeat ev1. rn.
  unfold ell_inside, disc, ell_gen, mapply, vnorm, vnorm2. cbn [e_set negb e_Ci e_d m00 m01 m10 m11]. rn.
  repeat ev1. rn.
  unfold ft_addFromUnicycle, fp_addStep. rn. repeat ev1. rn. rewrite cos_0, sin_0. repeat ev1.
  unfold L1, R1, nm. req.
Qed.

Lemma demo_run : compute_new_steps demo_cfg denv 5 fp_new fp_new 0 1 = PDone (lfoot L1) (rfoot R1) true true.
Proof.
  pose proof PI_RGT_0 as HPI.
  assert (H5 : 0 < deg2rad 5 < deg2rad 45) by (unfold deg2rad; lra).
  unfold compute_new_steps, Rgtb, Rgeb. rewrite demo_init. rn. repeat ev1.
  unfold search_steps. rn. unfold lfoot, rfoot, L0, R0. rn.
  pose proof demo_loop as HL. unfold s_at, lfoot, rfoot, L0, R0, dcfg, pl_search in HL. 
  replace (0 - 0) with 0 by lra. 
  match type of HL with ?x = _ => match goal with |- context [run_loop ?a ?b ?c] => change (run_loop a b c) with x end end.
  rewrite HL. rn.
  pose proof demo_terminal as HT. unfold lfoot, rfoot, L0, R0, dcfg, pl_search in HT.
  match type of HT with ?x = _ => match goal with |- context [terminal_step ?a ?b ?c ?d ?e] => change (terminal_step a b c d e) with x end end.
  rewrite HT. reflexivity.
Qed.

(** A walk: two steps found by the search (the second one parallel, at the end of the horizon) and the
    two terminal steps. *)
Definition walk_ops : list plop := [PlMaxLen1 10; PlWidth 0 2; PlPeriod 1; PlTimings 1 2 1; PlController CDirect].
Definition walk_prob : problem := MkProb (Some 10) (Some 10) (Some 0) (Some (deg2rad 45)) ell_clear 1 (5/2).
Definition walk_cfg : plcfg :=
  MkPl 1 2 1 1 (deg2rad 5) 2 10 10 (5 / 100) (deg2rad 45) true true false 0 0 (9 / 10) (7 / 10) CDirect FsReference
       (1 / 100) (1 / 100) walk_prob.
Lemma walk_cfg_ok : pl_history walk_ops = walk_cfg.
Proof.
  unfold pl_history, walk_ops. cbn [fold_left]. rewrite new_explicit.
  rewrite run_maxLen, run_width, run_period, run_timings by lra. reflexivity.
Qed.
Definition wcfg := pl_search walk_cfg 0 3 straight.
Definition prevR : step := MkStep (V2 0 (-1)) 0 0 nm.
Definition stL : step := MkStep (V2 2 1) 0 2 nm.
Definition stR : step := MkStep (V2 2 (-1)) 0 3 nm.
Definition cost2 : R := prob_cost walk_prob (cand_of (V2 2 2) 0 2 (V2 2 1) (V2 2 2)).
Definition w_at (t tOpt mc : R) : sst := MkS (lfoot L0) (rfoot R0) true true t tOpt mc 0 1 prevR.
Definition w_mid : sst :=
  MkS (lfoot (MkFP [MkStep (V2 0 1) 0 0 nm; stL] nm)) (rfoot R0) false false 3 (-1) cost2 0 0 stL.
Definition w_end : sst :=
  MkS (lfoot (MkFP [MkStep (V2 0 1) 0 0 nm; stL] nm)) (rfoot (MkFP [prevR; stR] nm)) true false 4 (-1) cost2 0 0 stR.
Ltac wn := rn; cbv beta iota zeta delta [walk_cfg walk_prob w_at w_mid w_end wcfg prevR stL stR lfoot rfoot L0 R0 nm]; rn.

Lemma walk0 : iter1 wcfg (w_at 0 (-1) (10^10)) = Ok (w_at 1 (-1) (10^10)).
Proof. unfold iter1, body, advance. wn. repeat ev1. wn. repeat ev1. req. Qed.
Lemma walk1 : iter1 wcfg (w_at 1 (-1) (10^10)) = Ok (w_at 2 (-1) (10^10)).
Proof. unfold iter1, body, advance. wn. repeat ev1. wn. repeat ev1. req. Qed.
Lemma walk2 : iter1 wcfg (w_at 2 (-1) (10^10)) = Ok (w_at 3 2 cost2).
Proof.
  pose proof PI_RGT_0 as HPI.
  assert (H5 : 0 < deg2rad 5 < deg2rad 45) by (unfold deg2rad; lra).
  unfold iter1, body, advance, try_sample, get_rPl, get_rel, ft_posFromUnicycle, ft_isTiny. wn.
  rewrite cos_0, sin_0. repeat ev1. wn.
  unfold prob_feasible, maxLength_ok, minWidth_ok, maxAngle_ok, inEllipse_ok, maxBack_ok, ell_inside. wn.
  cbn [e_set ell_clear negb]. rewrite ?cos_0, ?sin_0. repeat ev1. wn. repeat ev1.
  unfold cost2, walk_prob. req. unfold prob_cost. wn. field.
Qed.
Lemma walk3 : iter1 wcfg (w_at 3 2 cost2) = Ok w_mid.
Proof.
  unfold iter1, body, advance, place_best, refresh_prev, ft_addFromUnicycle, fp_addStep, ft_isTiny. wn. rewrite ?cos_0, ?sin_0.
  repeat ev1. wn. repeat ev1. wn. repeat ev1. rewrite ?cos_0, ?sin_0. req.
Qed.
Lemma walk4 : iter1 wcfg w_mid = Ok w_end.
Proof.
  unfold iter1, body, advance, place_parallel, refresh_prev, ft_addParallel, fp_addStep, ft_isTiny, ft_stateFromStep. wn. rewrite ?cos_0, ?sin_0.
  repeat ev1. wn. repeat ev1. wn. replace (0 - 0) with 0 by lra. rewrite ?cos_0, ?sin_0. repeat ev1. wn. repeat ev1. req.
Qed.

Lemma walk_loop : run_loop wcfg 9 (w_at 0 (-1) (10^10)) = LDone w_end.
Proof.
  cbn [run_loop]. rewrite walk0, walk1, walk2, walk3, walk4.
  change (g_end wcfg) with 3. cbn [s_t w_at w_mid w_end]. repeat ev1. reflexivity.
Qed.

Definition Lw : footprint := MkFP [MkStep (V2 0 1) 0 0 nm; stL; MkStep (V2 3 1) 0 4 nm] nm.
Definition Rw : footprint := MkFP [prevR; stR; MkStep (V2 3 (-1)) 0 5 nm] nm.
Lemma walk_terminal : terminal_step wcfg true (s_left w_end) (s_right w_end) (straight 3) = Ok (lfoot Lw, rfoot Rw).
Proof.
  pose proof PI_RGT_0 as HPI.
  assert (H5 : 0 < deg2rad 5 < deg2rad 45) by (unfold deg2rad; lra).
  assert (HM : Rmax (0 + 1) (3 + 1) = 4) by (unfold Rmax; destruct (Rle_dec _ _); lra).
  unfold terminal_step, get_rPl, get_rel, ft_posFromUnicycle, ft_isTiny, ft_stateFromStep. wn.
  rewrite cos_0, sin_0, HM.
  unfold prob_feasible, maxLength_ok, minWidth_ok, maxAngle_ok, inEllipse_ok, maxBack_ok, ell_inside. wn.
  cbn [e_set ell_clear negb]. rewrite ?cos_0, ?sin_0. repeat ev1. wn.
  unfold ft_addFromUnicycle, fp_addStep. wn. repeat ev1. wn. rewrite cos_0, sin_0. repeat ev1.
  unfold Lw, Rw. wn. req.
Qed.

Lemma walk_init : init_planner walk_cfg denv 0 3 fp_new fp_new
  = Some (MkInit (lfoot L0) (rfoot R0) true true (MkU vzero 0), straight).
Proof.
  unfold init_planner, init_state, feet_state, ft_addFromUnicycle, fp_addStep, Rgtb. wn.
  rewrite cos_0, sin_0. repeat ev1. wn. req.
Qed.

Lemma walk_run : compute_new_steps walk_cfg denv 9 fp_new fp_new 0 3 = PDone (lfoot Lw) (rfoot Rw) true true.
Proof.
  pose proof PI_RGT_0 as HPI.
  assert (H5 : 0 < deg2rad 5 < deg2rad 45) by (unfold deg2rad; lra).
  unfold compute_new_steps, Rgtb, Rgeb. rewrite walk_init.
  cbn [pl_nomWidth pl_maxLen pl_maxBack pl_minAngle pl_maxAngle walk_cfg v_satOk denv negb i_left i_right i_swingLeft i_first pl_addTerm pl_reset pl_startLeft].
  repeat ev1.
  unfold search_steps. fold wcfg.
  change (ft_getLast (rfoot R0)) with (Some prevR). cbv beta iota zeta.
  change (g_init wcfg) with 0. change (g_nomT wcfg) with 1. change (st_time prevR) with 0. replace (0 - 0) with 0 by lra.
  fold (w_at 0 (-1) (10 ^ 10)). rewrite walk_loop.
  change (s_swingLeft w_end) with true. change (g_sol wcfg (g_end wcfg)) with (straight 3). rewrite walk_terminal. reflexivity.
Qed.

(** The states of the main loop of this walk. *)
Definition walk_states (k : nat) : sst :=
  match k with
  | 0%nat => w_at 0 (-1) (10^10) | 1%nat => w_at 1 (-1) (10^10) | 2%nat => w_at 2 (-1) (10^10) | 3%nat => w_at 3 2 cost2
  | 4%nat => w_mid | _ => w_end
  end.

(** Standing still: the stored steps have different impact times and nothing is added. *)
Definition still : R -> ustate := fun _ => MkU vzero 0.
Definition senv : planenv := MkEnv true None vzero 0 (fun _ => Some still).
Definition Rlate : footprint := MkFP [MkStep (V2 0 (-1)) 0 1 nm] nm.
Definition Lsync : footprint := MkFP [MkStep (V2 0 1) 0 1 nm] nm.
Lemma still_init : init_planner walk_cfg senv 1 2 L0 Rlate
  = Some (MkInit (lfoot L0) (rfoot Rlate) true false (MkU vzero 0), still).
Proof.
  unfold init_planner, init_state, feet_state, ft_stateFromStep, Rgtb, Rlate. wn. cbv beta iota zeta delta [senv]. wn.
  repeat ev1. wn. repeat ev1. wn. replace (0 - 0) with 0 by lra. rewrite cos_0, sin_0. req.
Qed.
Definition scfg2 := pl_search walk_cfg 1 2 still.
Definition st_still (t : R) (p : R) : sst :=
  MkS (lfoot L0) (rfoot Rlate) true false t (-1) (10^10) p 0 (MkStep (V2 0 (-1)) 0 1 nm).
Lemma still_loop : run_loop scfg2 5 (st_still 1 0) = LDone (st_still 3 1).
Proof.
  assert (H5 : 0 < deg2rad 5) by (pose proof PI_RGT_0; unfold deg2rad; lra).
  assert (E1 : iter1 scfg2 (st_still 1 0) = Ok (st_still 2 0)).
  { unfold iter1, body, advance, ft_isTiny, scfg2, st_still, Rlate. wn. cbv beta iota zeta delta [still]. wn. rewrite ?cos_0, ?sin_0.
    repeat ev1. wn. repeat ev1. req. }
  assert (E2 : iter1 scfg2 (st_still 2 0) = Ok (st_still 3 1)).
  { unfold iter1, body, advance, ft_isTiny, scfg2, st_still, Rlate. wn. cbv beta iota zeta delta [still]. wn. rewrite ?cos_0, ?sin_0.
    repeat ev1. wn. repeat ev1. req. }
  cbn [run_loop]. rewrite E1, E2.
  change (g_end scfg2) with 2. cbn [s_t st_still]. repeat ev1. reflexivity.
Qed.
Lemma still_run : compute_new_steps walk_cfg senv 5 L0 Rlate 1 2 = PDone (lfoot Lsync) (rfoot Rlate) true true.
Proof.
  pose proof PI_RGT_0 as HPI.
  assert (H5 : 0 < deg2rad 5 < deg2rad 45) by (unfold deg2rad; lra).
  assert (HM : Rmax (1 + 1) (1 + 1) = 2) by (unfold Rmax; destruct (Rle_dec _ _); lra).
  unfold compute_new_steps, Rgtb, Rgeb. rewrite still_init.
  cbn [pl_nomWidth pl_maxLen pl_maxBack pl_minAngle pl_maxAngle walk_cfg v_satOk senv negb i_left i_right i_swingLeft i_first pl_addTerm pl_reset pl_startLeft].
  repeat ev1.
  unfold search_steps. fold scfg2.
  change (ft_getLast (rfoot Rlate)) with (Some (MkStep (V2 0 (-1)) 0 1 nm)). cbv beta iota zeta.
  change (g_init scfg2) with 1. cbn [st_time]. replace (1 - 1) with 0 by lra.
  fold (st_still 1 0). rewrite still_loop.
  assert (HT : terminal_step scfg2 true (lfoot L0) (rfoot Rlate) (still 2) = Ok (lfoot L0, rfoot Rlate)).
  { unfold terminal_step, get_rPl, get_rel, ft_posFromUnicycle, ft_isTiny, ft_stateFromStep, scfg2, Rlate. wn. cbv beta iota zeta delta [still]. wn.
    rewrite ?cos_0, ?sin_0, ?HM.
    unfold prob_feasible, maxLength_ok, minWidth_ok, maxAngle_ok, inEllipse_ok, maxBack_ok, ell_inside. wn.
    cbn [e_set ell_clear negb]. rewrite ?cos_0, ?sin_0. repeat ev1. wn. replace (0 - 0) with 0 by lra. rewrite ?cos_0, ?sin_0. repeat ev1. wn.
    reflexivity. }
  change (s_swingLeft (st_still 3 1)) with true. change (s_left (st_still 3 1)) with (lfoot L0). change (s_right (st_still 3 1)) with (rfoot Rlate).
  change (g_sol scfg2 (g_end scfg2)) with (still 2). rewrite HT.
  unfold sync_feet, fp_addStep, Rgtb. wn. unfold Rlate. wn. repeat ev1. reflexivity.
Qed.

(** Nominal step time zero (accepted by setStepTimings): terminal steps with equal impact times. *)
Definition nom_ops : list plop := [PlMaxLen1 10; PlWidth 0 2; PlPeriod 1; PlTimings 0 10 0; PlController CDirect].
Definition nom_cfg : plcfg :=
  MkPl 0 10 0 1 (deg2rad 5) 2 10 10 (5 / 100) (deg2rad 45) true true false 0 0 (9 / 10) (7 / 10) CDirect FsReference
       (1 / 100) (1 / 100) walk_prob.
Lemma nom_cfg_ok : pl_history nom_ops = nom_cfg.
Proof.
  unfold pl_history, nom_ops. cbn [fold_left]. rewrite new_explicit.
  rewrite run_maxLen, run_width, run_period, run_timings by lra. reflexivity.
Qed.
Definition ncfg := pl_search nom_cfg 0 1 straight.
Definition n_at (t p : R) : sst := MkS (lfoot L0) (rfoot R0) true true t (-1) (10 ^ 10) p 0 prevR.
Lemma nom_loop : run_loop ncfg 9 (n_at 0 0) = LDone (n_at 2 1).
Proof.
  assert (H5 : 0 < deg2rad 5) by (pose proof PI_RGT_0; unfold deg2rad; lra).
  assert (E1 : iter1 ncfg (n_at 0 0) = Ok (n_at 1 0)).
  { unfold iter1, body, advance, n_at, ncfg, nom_cfg. wn. repeat ev1. wn. repeat ev1. req. }
  assert (E2 : iter1 ncfg (n_at 1 0) = Ok (n_at 2 1)).
  { unfold iter1, body, advance, place_parallel, refresh_prev, ft_isTiny, ft_stateFromStep, n_at, ncfg, nom_cfg. wn. rewrite ?cos_0, ?sin_0.
    repeat ev1. wn. repeat ev1. wn. replace (0 - 0) with 0 by lra. rewrite ?cos_0, ?sin_0. repeat ev1. wn. repeat ev1. req. }
  cbn [run_loop]. rewrite E1, E2.
  change (g_end ncfg) with 1. cbn [s_t n_at]. repeat ev1. reflexivity.
Qed.
Definition Ln : footprint := MkFP [MkStep (V2 0 1) 0 0 nm; MkStep (V2 1 1) 0 0 nm] nm.
Definition Rn : footprint := MkFP [prevR; MkStep (V2 1 (-1)) 0 0 nm] nm.
Lemma nom_run : compute_new_steps nom_cfg denv 9 fp_new fp_new 0 1 = PDone (lfoot Ln) (rfoot Rn) true true.
Proof.
  pose proof PI_RGT_0 as HPI.
  assert (H5 : 0 < deg2rad 5 < deg2rad 45) by (unfold deg2rad; lra).
  assert (HM : Rmax (0 + 0) (0 + 0) = 0) by (unfold Rmax; destruct (Rle_dec _ _); lra).
  unfold compute_new_steps, Rgtb, Rgeb.
  assert (Hi : init_planner nom_cfg denv 0 1 fp_new fp_new
    = Some (MkInit (lfoot L0) (rfoot R0) true true (MkU vzero 0), straight)).
  { unfold init_planner, init_state, feet_state, ft_addFromUnicycle, fp_addStep, Rgtb, nom_cfg. wn.
    rewrite cos_0, sin_0. repeat ev1. wn. req. }
  rewrite Hi.
  cbn [pl_nomWidth pl_maxLen pl_maxBack pl_minAngle pl_maxAngle nom_cfg v_satOk denv negb i_left i_right i_swingLeft i_first pl_addTerm pl_reset pl_startLeft].
  repeat ev1.
  unfold search_steps. fold ncfg.
  change (ft_getLast (rfoot R0)) with (Some prevR). cbv beta iota zeta.
  change (g_init ncfg) with 0. change (g_nomT ncfg) with 0. change (st_time prevR) with 0. replace (0 - 0) with 0 by lra.
  fold (n_at 0 0). rewrite nom_loop.
  assert (HT : terminal_step ncfg true (lfoot L0) (rfoot R0) (straight 1) = Ok (lfoot Ln, rfoot Rn)).
  { unfold terminal_step, get_rPl, get_rel, ft_posFromUnicycle, ft_isTiny, ft_stateFromStep, ncfg, nom_cfg. wn.
    rewrite cos_0, sin_0, HM.
    unfold prob_feasible, maxLength_ok, minWidth_ok, maxAngle_ok, inEllipse_ok, maxBack_ok, ell_inside. wn.
    cbn [e_set ell_clear negb]. rewrite ?cos_0, ?sin_0. repeat ev1. wn.
    unfold ft_addFromUnicycle, fp_addStep. wn. repeat ev1. wn. rewrite cos_0, sin_0. repeat ev1.
    unfold Ln, Rn. wn. req. }
  change (s_swingLeft (n_at 2 1)) with true. change (s_left (n_at 2 1)) with (lfoot L0). change (s_right (n_at 2 1)) with (rfoot R0).
  change (g_sol ncfg (g_end ncfg)) with (straight 1). rewrite HT. reflexivity.
Qed.

(** Planner period zero (accepted by setPlannerPeriod): the search never advances. *)
Definition zero_ops : list plop := [PlMaxLen1 10; PlWidth 0 2; PlPeriod 0; PlTimings 1 2 1; PlController CDirect].
Lemma zero_loop : forall c fuel s, g_dT c = 0 -> s_t s = g_init c -> g_init c < g_end c -> 0 <= s_offset s -> run_loop c fuel s = LFuel.
Proof.
  intros c fuel. induction fuel as [|fuel IH]; intros s H1 H2 H3 H4; cbn [run_loop]; rewrite (rleb_t (s_t s) (g_end c)) by lra; [reflexivity|].
  unfold iter1, body. unfold Rgtb at 1. rewrite (rltb_f (g_init c + s_offset s) (s_t s)) by lra. rewrite Bool.andb_false_r. cbn [rbind].
  apply IH; auto. cbn [s_t set_t]. unfold advance, Rgtb. rewrite (rltb_f (g_end c) (s_t s + g_dT c)) by lra. cbn [andb]. lra.
Qed.
Lemma zero_run : forall fuel, compute_new_steps (pl_history zero_ops) denv fuel fp_new fp_new 0 3 = PFuel.
Proof.
  intros fuel.
  assert (HC : pl_history zero_ops = pl_withTimes 1 2 1 0 walk_cfg).
  { unfold pl_history, zero_ops. cbn [fold_left]. rewrite new_explicit.
    rewrite run_maxLen, run_width, run_period, run_timings by lra. reflexivity. }
  rewrite HC. pose proof PI_RGT_0 as HPI.
  assert (H5 : 0 < deg2rad 5 < deg2rad 45) by (unfold deg2rad; lra).
  unfold compute_new_steps, Rgtb, Rgeb.
  change (init_planner (pl_withTimes 1 2 1 0 walk_cfg) denv 0 3 fp_new fp_new) with (init_planner walk_cfg denv 0 3 fp_new fp_new). rewrite walk_init.
  cbn [pl_nomWidth pl_maxLen pl_maxBack pl_minAngle pl_maxAngle walk_cfg pl_withTimes v_satOk denv negb i_left i_right i_swingLeft i_first pl_addTerm pl_reset pl_startLeft].
  repeat ev1. unfold search_steps. change (ft_getLast (rfoot R0)) with (Some prevR). cbv beta iota zeta.
  rewrite zero_loop; [reflexivity|reflexivity|reflexivity| |]; simpl; lra.
Qed.

(** A stored step for one foot only, no terminal step, and a horizon too short for a step. *)
Definition noterm_ops : list plop := walk_ops ++ [PlAddTerm false].
Lemma lone_run : compute_new_steps (pl_history noterm_ops) senv 5 fp_new R0 0 (1/2) = PUB.
Proof.
  assert (HC : pl_history noterm_ops = pl_withFlags false true false walk_cfg).
  { unfold noterm_ops, pl_history. rewrite fold_left_app. change (fold_left pl_run walk_ops pl_new) with (pl_history walk_ops). rewrite walk_cfg_ok. reflexivity. }
  rewrite HC. pose proof PI_RGT_0 as HPI.
  assert (H5 : 0 < deg2rad 5 < deg2rad 45) by (unfold deg2rad; lra).
  assert (Hi : init_planner (pl_withFlags false true false walk_cfg) senv 0 (1/2) fp_new R0
    = Some (MkInit (lfoot fp_new) (rfoot R0) true false (MkU vzero 0), still)).
  { unfold init_planner, init_state, feet_state, ft_stateFromStep, Rgtb, pl_withFlags. wn. cbv beta iota zeta delta [senv]. wn.
    repeat ev1. wn. replace (0 - 0) with 0 by lra. rewrite cos_0, sin_0. req. }
  unfold compute_new_steps, Rgtb, Rgeb. rewrite Hi.
  cbn [pl_nomWidth pl_maxLen pl_maxBack pl_minAngle pl_maxAngle walk_cfg pl_withFlags v_satOk senv negb i_left i_right i_swingLeft i_first pl_addTerm pl_reset pl_startLeft].
  repeat ev1. unfold search_steps. change (ft_getLast (rfoot R0)) with (Some prevR). cbv beta iota zeta.
  match goal with |- context [run_loop ?c _ _] => set (cc := c) end.
  change (g_init cc) with 0. change (st_time prevR) with 0. replace (0 - 0) with 0 by lra.
  set (z := fun t => MkS (lfoot fp_new) (rfoot R0) true false t (-1) (10 ^ 10) 0 0 prevR).
  change (run_loop cc 5 _) with (run_loop cc 5 (z 0)).
  assert (E1 : iter1 cc (z 0) = Ok (z (1/2))).
  { subst z cc. unfold iter1, body, advance, pl_withFlags. wn. repeat ev1. wn. repeat ev1. req. }
  assert (E2 : iter1 cc (z (1/2)) = Ok (z (3/2))).
  { subst z cc. unfold iter1, body, advance, pl_withFlags. wn. repeat ev1. wn. repeat ev1. req. }
  assert (EL : run_loop cc 5 (z 0) = LDone (z (3/2))).
  { cbn [run_loop]. rewrite E1, E2. change (g_end cc) with (1/2). change (s_t (z 0)) with 0. change (s_t (z (1/2))) with (1/2). change (s_t (z (3/2))) with (3/2).
    repeat ev1. reflexivity. }
  rewrite EL. reflexivity.
Qed.
