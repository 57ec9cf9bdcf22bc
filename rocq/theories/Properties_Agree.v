(** C79: planned walks alternate the feet, and the results of the plug-ins fit together. *)
From Coq Require Import String Reals Lra Lia ZArith List Bool Sorting.Sorted Sorting.Permutation.
From Verif Require Import Prelude EvalTac FootPrint FootPrintSpec UnicycleFoot PlannerSearch PlannerSpec Planner PlannerProofs3 PlannerDemo Properties_Planner PlannerProofs6 PlannerProofs7
  EndToEndSpec EndToEndProofs EndToEndProofs2 EndToEndProofs3 EndToEndProofs4
  GenPhases GenSpec GenProofs GenProofs2 GenProofs3 FeetTraj FeetSpec FeetSpline FeetPose ZMP ZMPSpec ZMPProofs4 CoMHeight CoMHeightSpec DCM DCMSpec Generator GeneratorSpec GeneratorProofs
  SeamSpec SeamProofs AgreeSpec AgreeProofs AgreeProofs2 AgreeDemo Properties_Generator Properties_Feet Properties_ZMP Properties_DCM Properties_EndToEnd.
Import ListNotations.
Open Scope R_scope.
Notation Forall := List.Forall.

(** The planner: from no step at all, or from one step of each foot, the feet move in turns. *)
Theorem C79_planned_in_turns : forall ops e fuel lfp rfp init tend l r sw sl, let c := pl_history ops in
  0 < pl_minT c -> nonneg_times (fp_steps lfp) -> nonneg_times (fp_steps rfp) -> fresh (fp_steps lfp) (fp_steps rfp) ->
  compute_new_steps c e fuel lfp rfp init tend = PDone l r sw sl -> in_turns (fp_steps (ft_fp l)) (fp_steps (ft_fp r)).
Proof. intros ops e fuel lfp rfp init tend l r sw sl c Hm Nl Nr Fr H. exact (plan_turns c e fuel lfp rfp init tend l r sw sl (history_good ops) Hm Nl Nr Fr H). Qed.
Print Assumptions C79_planned_in_turns.

(** The generator: foot prints whose feet move in turns are walked in turns, whatever the sort does with equal times. *)
Theorem C79_walked_in_turns : forall ops left right init dT srt out,
  in_turns (fp_steps left) (fp_steps right) -> sort_result (fp_steps left) (fp_steps right) srt -> named left -> named right ->
  generate_phases (settings_after ops) left right init dT srt = Ok out -> alternating (tl (go_ord out)).
Proof.
  intros ops left right init dT srt out Tu Hs Nl Nr Gen.
  assert (Nn : fp_name left <> fp_name right).
  { pose proof Gen as Q. unfold generate_phases in Q. destruct (Nat.ltb _ _); [discriminate|]. destruct (Nat.ltb _ _); [discriminate|]. destruct (String.eqb (fp_name left) (fp_name right)) eqn:E; [discriminate|]. apply String.eqb_neq; exact E. }
  eapply ord_alternates; eauto.
Qed.
Print Assumptions C79_walked_in_turns.

(** A user who plans and re-plans as in C76: after every generation the feet walk in turns; the ZMP in the world is the one
    that feet trajectories, local ZMPs and weights give, everywhere if no step was corrected, otherwise from the end of
    the first double support on; and in single support the ZMP of the DCM trajectory is on the foot that stands. *)
Theorem C79_results_agree : forall spl hspl fspl cs call g os g' o,
  spline_contract spl -> (forall T a m, 0 < T -> clamped T a m (hspl T a m)) ->
  well_used spl hspl fspl None gen_new (cs ++ [call]) -> is_generation call = true ->
  session spl hspl fspl gen_new cs = Some (g, os) -> perform spl hspl fspl g call = (g', o) ->
  o = Done /\ exists out, gn_ph g' = Have out /\ alternating (tl (go_ord out))
  /\ forall TL TR, feet_reported g' TL TR ->
     (forall zo, gn_zmp g' <> None -> gn_zmpO g' = Have zo ->
        forall i, (i < length (ph_left (go_ph out)))%nat ->
        (bnd (go_ph out) 1 <= i)%nat \/ (uncorrected g call /\ forall c, gn_zmp g = Some c -> z_prev c = None) ->
        zmp_from_parts TL TR zo i)
     /\ (forall d x, gn_dcm g' = Some d -> gn_dcmO g' = Have x -> forall i (b : bool),
        nth_error (foot_phases (go_ph out) b) i = Some Stance -> dcm_zmp_on (if b then TL else TR) (offset_of (dm_cfg d) b) x i).
Proof.
  intros spl hspl fspl cs call g os g' o Hspl Hh W Ig Hse Hp.
  destruct (session_last spl hspl fspl Hh cs None gen_new call g os W live_new Hse) as (last & L & W1).
  destruct (call_ready spl hspl fspl last g call L W1 Ig) as (ga & l & r & init & dT & srt & lead & gap & Hi & E & Rd & Un).
  destruct (ready_live spl hspl fspl Hh g ga l r init dT srt lead gap Hi Rd) as (g2 & E2 & _). rewrite Hp, E2 in E. injection E as -> ->. split; [reflexivity|].
  destruct (from_done _ _ _ _ _ _ _ _ _ _ E2) as (out & Gen & Hph & _ & _ & Hf & Hz & Hd & _ & K1 & K2 & K3 & K4 & K5 & K6 & Hu).
  exists out. split; [exact Hph|]. destruct Rd as (Al & [[(ops & Es) Sf Su] Sc] & (N1 & N2 & N3 & N4) & T1 & T2 & Tu & W0 & Wl & (D0 & D1 & D2 & Pl) & Srt).
  assert (Nn : fp_name l <> fp_name r) by (rewrite N3, N4; discriminate). rewrite Es in Gen.
  split; [eapply ord_alternates; eauto|]. intros TL TR Fr.
  assert (Nb : ~ bare ga).
  { intros (B0 & B1 & _). destruct Fr as [[F _]|[F _]]; [rewrite K2 in F|rewrite K6 in F]; contradiction. }
  destruct Pl as [B|[(F1 & F2 & F3) Pr]]; [contradiction|]. destruct Wl as [B|Wl]; [contradiction|]. rewrite Es in F1, F2, F3, D1.
  pose proof (C44_regular_walks ops l r init dT srt out lead gap Srt Wl F1 F2 F3 D1 Gen) as Ne.
  assert (Fo : grounded l r out TL TR).
  { assert (Sa : sane ga) by (constructor; eauto).
    destruct (from_lengths spl hspl fspl ga l r init dT srt g2 Sa E2) as (n & (out' & Ho' & Ln & _) & Lf & Lc & _). rewrite Hph in Ho'. injection Ho' as <-.
    intros b. destruct Fr as [[Fn Fo]|[Fn Fo]].
    - split; [destruct (Lf Fn) as (a1 & b1 & Q & Q1 & Q2); rewrite Fo in Q; injection Q as -> ->; destruct b; congruence|].
      rewrite K2 in Fn. destruct (gn_feet ga) as [c|] eqn:Ec; [|congruence]. destruct (Hf c eq_refl) as (x & Fc & Q). rewrite Fo in Q. injection Q as <-. destruct (Sf c eq_refl) as (fops & ->).
      intros m Lm Nm. eapply feet_still; eauto.
    - split; [destruct (Lc Fn) as (a1 & b1 & Q & Q1 & Q2); rewrite Fo in Q; injection Q as -> ->; destruct b; congruence|].
      rewrite K6 in Fn. destruct (gn_cub ga) as [c|] eqn:Ec; [|congruence]. destruct (Hu c eq_refl) as (x & Fc & Q). rewrite Fo in Q. injection Q as <-. destruct (Su c eq_refl) as (fops & ->).
      intros m Lm Nm. eapply spline_still; eauto. }
  destruct W0 as [TiL TiR _ _ _ _ _]. split.
  - intros zo Zn Zo i Li Hc. destruct (gn_zmp ga) as [c|] eqn:Ez; [|exfalso; apply Zn; auto]. destruct (Hz c eq_refl) as (zo' & c' & Zc & Q & _). rewrite Zo in Q. injection Q as <-. rewrite Es in Zc.
    eapply (zmp_agrees ops l r init dT srt out); eauto. destruct Hc as [Hc|[Hc Hn]]; [left; exact Hc|right]. apply Hn. rewrite <- (Un Hc). reflexivity.
  - intros d x Dn Do i b St. destruct (gn_dcm ga) as [d0|] eqn:Ed; [|rewrite (K5 eq_refl) in Dn; discriminate]. destruct (Hd d0 eq_refl) as (x' & c' & Dc & Q & Q2). rewrite Do in Q. injection Q as <-. rewrite Q2 in Dn. injection Dn as <-.
    rewrite Es in Dc. destruct (pr_dcm _ _ Pr _ Ed) as (P1 & P2 & P3 & P4). rewrite Es in P3, P4.
    assert (Ro : run_ok ops l r init dT srt out (dm_cfg d0)).
    { split; [exact Srt|]. split; [exact Gen|]. split; [split; intros s Is; [rewrite (N1 s Is)|rewrite (N2 s Is)]; auto|]. split; [exact Ne|]. split; [split; auto|]. split; [exact P4|].
      pose proof (last_piece _ _ _ _ _ _ _ Gen) as Lp. cbv zeta in Lp |- *. eapply Rle_trans; [exact P3|]. apply Rmult_le_compat_l; [lra|exact Lp]. }
    destruct (run_facts _ _ _ _ _ _ _ _ Ro) as (o2 & l0 & r0 & p0 & v0 & _ & _ & _ & Hd2 & _). unfold dcm_of in Hd2. rewrite Dc in Hd2. injection Hd2 as <- ->.
    pose proof (dcm_agrees ops l r init dT srt out Srt N1 N2 Nn Tu Gen (dm_cfg d0) x _ TL TR Ro Dc Fo i b St) as Q.
    destruct b; exact Q.
Qed.
Print Assumptions C79_results_agree.

(** The walk of AgreeDemo.v with feet, ZMP and DCM generator attached. *)
Definition agree_cfg : list gev := [GAddFeet; GFeet (FHeight (5/100)); GAddZmp; GZmp (ZStance (V2 (1/50) 0) (V2 (1/50) 0)); GAddDcm].
Definition agree_srt : list tstep :=
  [MkT true 0 (MkStep (V2 0 1) 0 0 nml); MkT false 0 gprevR; MkT true 1 gstL; MkT false 1 gstR; MkT true 2 (MkStep (V2 3 1) 0 4 nml); MkT false 2 (MkStep (V2 3 (-1)) 0 5 nmr)].
Lemma zip_perm : forall (A : Type) (a b c d e f : A), Permutation [a; b; c; d; e; f] [a; c; e; b; d; f].
Proof. intros. constructor. apply (Permutation_cons_app [c; e] [d; f] b). cbn [app]. constructor. apply perm_swap. Qed.
Lemma agree_sort : sort_result (fp_steps gL) (fp_steps gR) agree_srt.
Proof. split; [apply zip_perm|]. unfold agree_srt, tle. repeat constructor; cbn; lra. Qed.
Lemma agree_plan : planner walk_cfg denv (MkFP [] "left") (MkFP [] "right") 0 3 = (gL, gR, true).
Proof.
  unfold planner. rewrite (plan_more walk_cfg denv 9 (iterations walk_cfg 0 3) (MkFP [] "left") (MkFP [] "right") 0 3 (PDone (lfoot gL) (rfoot gR) true true)); auto.
  - unfold iterations. cbn [pl_dT walk_cfg]. replace ((3 - 0) / 1) with 3 by lra. destruct (archimed 3) as [A _].
    assert (3 < up 3)%Z by (apply lt_IZR; exact A). nia.
  - exact gwalk_run.
  - discriminate.
Qed.
Example C79_example : forall spl hspl fspl, (forall T a m, 0 < T -> clamped T a m (hspl T a m)) ->
  let cs := map KCfg agree_cfg in let c := KGen (planner walk_cfg denv) 0 (1/10) 3 agree_srt in
  well_used spl hspl fspl None gen_new (cs ++ [c]) /\ is_generation c = true
  /\ exists g os g' out TL TR zo d x, session spl hspl fspl gen_new cs = Some (g, os) /\ perform spl hspl fspl g c = (g', Done)
  /\ uncorrected g c /\ (forall z, gn_zmp g = Some z -> z_prev z = None)
  /\ gn_ph g' = Have out /\ length (planned (go_ord out)) = 4%nat /\ feet_reported g' TL TR
  /\ gn_zmp g' <> None /\ gn_zmpO g' = Have zo /\ gn_dcm g' = Some d /\ gn_dcmO g' = Have x.
Proof.
  intros spl hspl fspl Hh cs c. set (g0 := fold_left gn_call agree_cfg gen_new).
  assert (Wp : plans walk_cfg denv (planner walk_cfg denv)) by (rewrite <- walk_cfg_ok; apply planner_plans; [apply history_good|rewrite walk_cfg_ok; apply walk_limits]).
  assert (L0 : live None g0) by (unfold g0, agree_cfg; cbn [fold_left]; do 5 apply live_call; apply live_new).
  assert (Su : suits (1/10) (pl_nomT walk_cfg) (pl_minT walk_cfg) g0).
  { unfold suits, sampled_finely. change (gn_set g0) with gset_new. cbn [g_endSwitch g_switchPct g_nomStep gset_new pl_nomT pl_minT walk_cfg].
    assert (M : Rmin (1/2) (1 - 1/2) = 1/2) by (unfold Rmin; destruct (Rle_dec _ _); lra). rewrite M.
    split; [lra|]. split; [lra|]. split; [lra|]. right. split; [lra|]. split.
    - intros f E. change (gn_feet g0) with (Some (feet_history [FHeight (5/100)])) in E. injection E as <-. rewrite swing_height. lra.
    - discriminate.
    - discriminate.
    - intros d E. change (gn_dcm g0) with (Some dm_new) in E. injection E as <-. change (gn_set g0) with gset_new. cbn. lra. }
  assert (Hs : forall l r, planner walk_cfg denv (gn_left g0) (gn_right g0) 0 3 = (l, r, true) -> sort_result (fp_steps l) (fp_steps r) agree_srt).
  { intros l r E. change (gn_left g0) with (MkFP [] "left") in E. change (gn_right g0) with (MkFP [] "right") in E. rewrite agree_plan in E. injection E as <- <-. exact agree_sort. }
  split; [unfold cs, agree_cfg; cbn [map app]; do 5 apply WCfg; apply WGen with (c := walk_cfg) (e := denv); auto; try lra; [exact walk_working|constructor]|]. split; [reflexivity|].
  destruct (generate_live spl hspl fspl Hh g0 walk_cfg denv (planner walk_cfg denv) 0 (1/10) 3 agree_srt L0 walk_working Wp ltac:(lra) Su Hs) as (g' & Eg & _).
  pose proof Eg as Eg2. unfold generate in Eg2. change (gn_left g0) with (MkFP [] "left") in Eg2. change (gn_right g0) with (MkFP [] "right") in Eg2. rewrite agree_plan in Eg2. cbn [negb] in Eg2.
  destruct (from_done _ _ _ _ _ _ _ _ _ _ Eg2) as (out & Gen & Hph & _ & _ & Hf & Hz & Hd & _ & K1 & K2 & K3 & K4 & K5 & K6 & Hu).
  destruct (Hf _ eq_refl) as ([TL TR] & _ & Of). destruct (Hz _ eq_refl) as (zo & zc & _ & Oz & Qz). destruct (Hd _ eq_refl) as (x & dc & _ & Od & Qd).
  exists g0. eexists. exists g', out, TL, TR, zo. eexists. exists x.
  split; [reflexivity|]. split; [exact Eg|]. split; [exact I|]. split; [intros z E; change (gn_zmp g0) with (Some (z_after [ZStance (V2 (1/50) 0) (V2 (1/50) 0)])) in E; injection E as <-; reflexivity|].
  split; [exact Hph|]. split.
  { destruct (generate_inv _ _ _ _ _ _ _ (good_history []) Gen) as (_ & _ & _ & _ & _ & _ & _ & _ & Ho & _). apply order_perm, Permutation_length in Ho. change (length agree_srt) with 6%nat in Ho.
    unfold planned. destruct (go_ord out) as [|y1 [|y2 yy]]; cbn in *; lia. }
  split; [left; split; [rewrite K2; discriminate|exact Of]|]. split; [rewrite Qz; discriminate|]. split; [exact Oz|]. split; [exact Qd|exact Od].
Qed.
