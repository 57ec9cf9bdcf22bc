(** C78: continuing with newly generated trajectories. *)
From Coq Require Import String Reals Lra Lia ZArith List Bool Sorting.Sorted Sorting.Permutation.
From Verif Require Import Prelude Rounding FootPrint FootPrintSpec UnicycleFoot PlannerSearch PlannerSpec Planner PlannerProofs3 Properties_Planner EndToEndSpec EndToEndProofs3 EndToEndProofs4 Properties_EndToEnd EvalTac GenPhases GenSpec GenProofs GenProofs2 GenProofs3 GenProofs4 FeetTraj FeetSpec FeetSpline CoMHeight CoMHeightSpec DCMProofs6 ZMP ZMPSpec DCM Generator GeneratorSpec GeneratorProofs SeamSpec SeamProofs Properties_Generator Properties_Feet Properties_CoMHeight Properties_Whole.
Import ListNotations.
Open Scope R_scope.

(** What both generations leave behind. *)
Lemma continued_facts : forall spl hspl fspl g0 g g1 g' out out' init dT dT' m, continued spl hspl fspl g0 g g1 g' out out' init dT dT' m ->
  sane g0 /\ sane g1 /\ com_sane g0 /\ com_sane g1
  /\ exists ops ga srt ops' ga' srt' l0 r0, 
     (gn_set g0 = settings_after ops /\ gn_feet ga = gn_feet g0 /\ gn_cub ga = gn_cub g0 /\ gn_com ga = gn_com g0 /\ gn_set ga = gn_set g0)
  /\ generate_from spl hspl fspl ga (gn_left g) (gn_right g) init dT srt = (g, Done)
  /\ generate_phases (settings_after ops) (gn_left g) (gn_right g) init dT srt = Ok out
  /\ sort_result (fp_steps (gn_left g)) (fp_steps (gn_right g)) srt
  /\ (gn_set g1 = settings_after ops' /\ gn_feet ga' = gn_feet g1 /\ gn_cub ga' = gn_cub g1 /\ gn_com ga' = gn_com g1 /\ gn_set ga' = gn_set g1
      /\ (forall z, gn_zmp g1 = Some z -> exists z', gn_zmp ga' = Some z' /\ z_init z' = z_init z))
  /\ generate_from spl hspl fspl ga' (gn_left g') (gn_right g') (init + INR m * dT) dT' srt' = (g', Done)
  /\ generate_phases (settings_after ops') (gn_left g') (gn_right g') (init + INR m * dT) dT' srt' = Ok out'
  /\ sort_result (fp_steps (gn_left g')) (fp_steps (gn_right g')) srt'
  /\ PhOk (settings_after ops') dT' (init + INR m * dT) (st_time l0) (st_time r0) (planned (go_ord out')) (go_ph out')
  /\ (forall b first first' s, hd_error (foot_list (fp_steps (gn_left g)) (fp_steps (gn_right g)) b) = Some first ->
      hd_error (foot_list (fp_steps (gn_left g')) (fp_steps (gn_right g')) b) = Some first' ->
      stands_on first (planned (go_ord out)) (go_ph out) b m s -> rest_at first' = rest_at s).
Proof.
  intros spl hspl fspl g0 g g1 g' out out' init dT dT' m [(cs & os & Cs) (c & srt & Ho & Hc & Hs) (cs' & os' & Cs' & Cf) (plan & gb & tend & mL & mR & srt' & Kp & Hn & Hs') O O' Ne Ne' D Pu].
  pose proof (sane_session spl hspl fspl cs gen_new g0 os sane_new Cs) as S0.
  assert (Sg : sane g) by (pose proof (sane_perform spl hspl fspl g0 c S0) as Q; rewrite Ho in Q; exact Q).
  pose proof (sane_session spl hspl fspl cs' g g1 os' Sg Cs') as S1.
  assert (C0 : com_sane g0). { apply (com_sane_session spl hspl fspl cs gen_new g0 os); auto. intros x Hx. discriminate. }
  assert (Cg : com_sane g) by (pose proof (com_sane_perform spl hspl fspl g0 c C0) as Q; rewrite Ho in Q; exact Q).
  pose proof (com_sane_session spl hspl fspl cs' g g1 os' Cg Cs') as C1.
  do 4 (split; [assumption|]). destruct (sa_set _ S0) as (ops & E0). destruct (sa_set _ S1) as (ops' & E1).
  destruct (perform_from _ _ _ _ _ _ _ _ _ Ho Hc) as (ga & Fa & A1 & A2 & A3 & A4).
  destruct (from_done _ _ _ _ _ _ _ _ _ _ Fa) as (o1 & Gen & X & _). rewrite O in X. injection X as <-. rewrite A1, E0 in Gen.
  destruct (configure_keeps _ _ _ _ _ _ _ Cf Cs') as [L1 R1].
  cbn [perform] in Hn. unfold regenerate in Hn. pose proof (replan_keeps plan gb g1 (init + INR m * dT) tend mL mR CNone) as K. pose proof (replan_keeps2 plan gb g1 (init + INR m * dT) tend mL mR CNone) as K2.
  destruct (replan _ _ _ _ _ _ _ _) as [ga' [|]] eqn:Er; cbn [negb fst] in *; [|discriminate]. destruct K as (B1 & B2 & B3). destruct K2 as (_ & B4 & _ & B5).
  destruct (from_keeps spl hspl fspl ga' (gn_left ga') (gn_right ga') (init + INR m * dT) dT' srt') as (_ & _ & L2 & R2 & _). rewrite Hn in L2, R2. cbn [fst] in L2, R2.
  destruct (from_done _ _ _ _ _ _ _ _ _ _ Hn) as (o2 & Gen' & X & _). rewrite O' in X. injection X as <-. rewrite B1, E1 in Gen'. rewrite <- L2, <- R2 in Gen', Hn.
  destruct (generate_inv _ _ _ _ _ _ _ (good_history ops') Gen') as (l0 & r0 & _ & _ & _ & _ & _ & _ & _ & _ & P & _).
  exists ops, ga, srt, ops', ga', srt', l0, r0. repeat (split; [auto; fail|]). split; [auto 10|]. repeat (split; [auto; fail|]).
  intros b first first' s F F' St. rewrite <- L1, <- R1 in *. rewrite L2, R2 in F'. eapply (seam_steps ops g1); eauto.
Qed.

(** C78 for the feet, minimum jerk.  Missing for the full C78: instants at which it is false, below. *)
Theorem C78_feet_partial : forall spl hspl fspl g0 g g1 g' out out' init dT dT' m, continued spl hspl fspl g0 g g1 g' out out' init dT dT' m ->
  gn_feet g0 <> None -> gn_feet g1 <> None -> exists TL TR TL' TR' x y, gn_feetO g = Have (TL, TR) /\ gn_feetO g' = Have (TL', TR')
  /\ nth_error TL m = Some x /\ nth_error TL' 0 = Some x /\ nth_error TR m = Some y /\ nth_error TR' 0 = Some y.
Proof.
  intros spl hspl fspl g0 g g1 g' out out' init dT dT' m C F0 F1. destruct (continued_facts _ _ _ _ _ _ _ _ _ _ _ _ _ C) as (S0 & S1 & _ & _ & ops & ga & srt & ops' & ga' & srt' & l0 & r0 & (A1 & A2 & _) & Fa & Gen & Hs & (B1 & B2 & _) & Fb & Gen' & Hs' & P & Same).
  destruct C as [_ _ _ _ O O' Ne Ne' D Pu].
  destruct (from_done _ _ _ _ _ _ _ _ _ _ Fa) as (o1 & _ & X & _ & _ & Y & _). rewrite O in X. injection X as <-. destruct (from_done _ _ _ _ _ _ _ _ _ _ Fb) as (o2 & _ & X & _ & _ & Y' & _). rewrite O' in X. injection X as <-.
  destruct (gn_feet g0) as [c|] eqn:E0; [|congruence]. destruct (gn_feet g1) as [c'|] eqn:E1; [|congruence].
  destruct (sa_feet _ S0 c E0) as (fops & ->). destruct (sa_feet _ S1 c' E1) as (fops' & ->).
  destruct (Y _ A2) as ([TL TR] & Z & Q). destruct (Y' _ B2) as ([TL' TR'] & Z' & Q').
  assert (K : forall b : bool, exists x, nth_error (if b then TL else TR) m = Some x /\ nth_error (if b then TL' else TR') 0 = Some x).
  { intros b. destruct (feet_rest _ _ _ _ _ _ _ _ _ _ Hs Gen Ne Z b m D) as (first & s & F & St & ->). destruct (feet_rest _ _ _ _ _ _ _ _ _ _ Hs' Gen' Ne' Z' b 0%nat (start_support _ _ _ _ _ _ _ P Ne')) as (first' & s' & F' & St' & ->).
    rewrite (start_stands _ _ _ _ _ _ _ _ _ _ P Ne' St'). exists (rest_at s). split; auto. f_equal. eapply Same; eauto. }
  destruct (K true) as (x & X1 & X2). destruct (K false) as (y & Y1 & Y2). exists TL, TR, TL', TR', x, y. auto 10.
Qed.
Theorem C78_spline_feet_partial : forall spl hspl fspl g0 g g1 g' out out' init dT dT' m, continued spl hspl fspl g0 g g1 g' out out' init dT dT' m ->
  gn_cub g0 <> None -> gn_cub g1 <> None -> exists TL TR TL' TR' x y, gn_cubO g = Have (TL, TR) /\ gn_cubO g' = Have (TL', TR')
  /\ nth_error TL m = Some x /\ nth_error TL' 0 = Some x /\ nth_error TR m = Some y /\ nth_error TR' 0 = Some y.
Proof.
  intros spl hspl fspl g0 g g1 g' out out' init dT dT' m C F0 F1. destruct (continued_facts _ _ _ _ _ _ _ _ _ _ _ _ _ C) as (S0 & S1 & _ & _ & ops & ga & srt & ops' & ga' & srt' & l0 & r0 & (A1 & _ & A2 & _) & Fa & Gen & Hs & (B1 & _ & B2 & _) & Fb & Gen' & Hs' & P & Same).
  destruct C as [_ _ _ _ O O' Ne Ne' D Pu].
  destruct (from_done _ _ _ _ _ _ _ _ _ _ Fa) as (o1 & _ & X & _ & _ & _ & _ & _ & _ & _ & _ & _ & _ & _ & _ & Y). rewrite O in X. injection X as <-. destruct (from_done _ _ _ _ _ _ _ _ _ _ Fb) as (o2 & _ & X & _ & _ & _ & _ & _ & _ & _ & _ & _ & _ & _ & _ & Y'). rewrite O' in X. injection X as <-.
  destruct (gn_cub g0) as [c|] eqn:E0; [|congruence]. destruct (gn_cub g1) as [c'|] eqn:E1; [|congruence].
  destruct (sa_cub _ S0 c E0) as (fops & ->). destruct (sa_cub _ S1 c' E1) as (fops' & ->).
  destruct (Y _ A2) as ([TL TR] & Z & Q). destruct (Y' _ B2) as ([TL' TR'] & Z' & Q').
  assert (K : forall b : bool, exists x, nth_error (if b then TL else TR) m = Some x /\ nth_error (if b then TL' else TR') 0 = Some x).
  { intros b. destruct (spline_rest _ _ _ _ _ _ _ _ _ _ _ _ Hs Gen Ne Z b m D) as (first & s & F & St & ->). destruct (spline_rest _ _ _ _ _ _ _ _ _ _ _ _ Hs' Gen' Ne' Z' b 0%nat (start_support _ _ _ _ _ _ _ P Ne')) as (first' & s' & F' & St' & ->).
    rewrite (start_stands _ _ _ _ _ _ _ _ _ _ P Ne' St'). exists (rest_at s). split; auto. f_equal. eapply Same; eauto. }
  destruct (K true) as (x & X1 & X2). destruct (K false) as (y & Y1 & Y2). exists TL, TR, TL', TR', x, y. auto 10.
Qed.
(** C78 for the CoM height, whose settings are those of the old generation. *)
Theorem C78_height_partial : forall spl hspl fspl g0 g g1 g' out out' init dT dT' m, continued spl hspl fspl g0 g g1 g' out out' init dT dT' m ->
  (forall T a h, 0 < T -> clamped T a h (hspl T a h)) -> gn_com g0 <> None -> gn_com g1 = gn_com g0 ->
  exists H H' x, gn_comO g = Have H /\ gn_comO g' = Have H' /\ nth_error H m = Some x /\ nth_error H' 0 = Some x.
Proof.
  intros spl hspl fspl g0 g g1 g' out out' init dT dT' m C Hc F0 F1. destruct (continued_facts _ _ _ _ _ _ _ _ _ _ _ _ _ C) as (_ & _ & S0 & _ & ops & ga & srt & ops' & ga' & srt' & l0 & r0 & (A1 & _ & _ & A2 & _) & Fa & Gen & Hs & (B1 & _ & _ & B2 & _) & Fb & Gen' & Hs' & P & _).
  destruct C as [_ _ _ _ O O' Ne Ne' D Pu].
  destruct (from_done _ _ _ _ _ _ _ _ _ _ Fa) as (o1 & _ & X & _ & _ & _ & _ & _ & Y & _). rewrite O in X. injection X as <-. destruct (from_done _ _ _ _ _ _ _ _ _ _ Fb) as (o2 & _ & X & _ & _ & _ & _ & _ & Y' & _). rewrite O' in X. injection X as <-.
  destruct (gn_com g0) as [c|] eqn:E0; [|congruence]. destruct (S0 c E0) as (hops & ->). rewrite F1 in B2.
  destruct (Y _ A2) as (H & Z & Q). destruct (Y' _ B2) as (H' & Z' & Q').
  assert (Nn : 0 <= h_nom (h_history hops)). { unfold height_compute in Z. destruct (Rltb (h_nom (h_history hops)) 0) eqn:T; [discriminate|]. apply Rltb_false in T. lra. }
  destruct (C52_nominal_in_double_support_partial ops hops _ _ _ _ _ _ hspl Hc Hs Gen Ne Nn) as (H1 & E1 & _ & K1).
  destruct (C52_nominal_in_double_support_partial ops' hops _ _ _ _ _ _ hspl Hc Hs' Gen' Ne' Nn) as (H2 & E2 & _ & K2).
  rewrite Z in E1. injection E1 as <-. rewrite Z' in E2. injection E2 as <-.
  destruct (D true) as (p & D1 & D2). destruct (start_support _ _ _ _ _ _ _ P Ne' true) as (p' & D1' & D2').
  destruct (K1 m p D1) as (x & X1 & X2 & _). destruct (K2 0%nat p' D1') as (x' & X1' & X2' & _).
  exists H, H', x. rewrite X1, X1', (X2 D2), (X2' D2'). auto.
Qed.
(** C78 for the weight on the left foot, if its value at [m] was passed on: no step of the weight or of its rate. *)
Theorem C78_weight : forall spl hspl fspl g0 g g1 g' out out' init dT dT' m o w z, continued spl hspl fspl g0 g g1 g' out out' init dT dT' m ->
  spline_contract spl -> gn_zmpO g = Have o -> nth_error (zo_wl o) m = Some w -> gn_zmp g1 = Some z -> z_init z = Some w ->
  (g_pause (gn_set g1) = true -> dT' <= 2 * g_endSwitch (gn_set g1)) ->
  exists o' w', gn_zmpO g' = Have o' /\ nth_error (zo_wl o') 0 = Some w' /\ p_p w' = p_p w /\ p_v w' = p_v w.
Proof.
  intros spl hspl fspl g0 g g1 g' out out' init dT dT' m o w z C Hc Ho Hw Hz Hi Hp. destruct (continued_facts _ _ _ _ _ _ _ _ _ _ _ _ _ C) as (_ & _ & _ & _ & ops & ga & srt & ops' & ga' & srt' & l0 & r0 & _ & _ & _ & _ & (B1 & _ & _ & _ & B2 & B3) & Fb & _).
  destruct (B3 z Hz) as (z' & Hz' & Ei). rewrite <- B2 in B1, Hp. destruct (C58_weight_used_partial _ _ _ _ _ _ _ _ _ _ _ _ Hc B1 Hz' Fb Hp) as (o' & w' & E1 & E2 & E3).
  rewrite Ei, Hi in E3. exists o', w'. auto.
Qed.
(** The planner of the library, configured by any calls of its setters, keeps the places of the feet. *)
Theorem C78_planner_keeps_places : forall ops e plan, plans (pl_history ops) e plan -> keeps_places plan.
Proof. intros ops e plan H. eapply planner_keeps_places; eauto. apply history_good. Qed.
(** Merge points: with step times and double supports that are long enough for the sampling time, each of them is an instant to which C78
    applies. *)
Theorem C78_merge_points : forall ops left right init dT srt out lead gap, let g := settings_after ops in
  sort_result (fp_steps left) (fp_steps right) srt -> walk (fp_steps left) (fp_steps right) init lead gap ->
  0 < gap - dT / 2 -> dT <= g_mrBegin g * (g_switchPct g * (gap - dT / 2)) -> dT / 2 <= (1 - g_mrEnd g) * (g_switchPct g * (gap - dT / 2)) -> 3 / 2 * dT <= g_endSwitch g ->
  generate_phases g left right init dT srt = Ok out -> no_empty_phase (go_ph out) ->
  forall m, In m (ph_merge (go_ph out)) -> double_support (go_ph out) m /\ punctual init dT out m.
Proof.
  intros ops left right init dT srt out lead gap g Hs W Hg H1 H2 H3 H Ne m Hm. pose proof (good_history ops) as G. fold (settings_after ops) in G. fold g in G.
  destruct (generate_inv _ _ _ _ _ _ _ G H) as (l0 & r0 & _ & _ & Hd & _ & _ & _ & _ & _ & P & _).
  destruct (generate_merges g left right init dT srt out lead gap G ltac:(lra) ltac:(lra) Hs W H1 H2 H3 H m Hm) as [->|(j & J1 & J2)].
  - split; [eapply start_support; eauto|]. intros k t Hk Hb. exfalso. pose proof (first_shift _ _ _ _ _ _ _ P Ne). destruct P. assert (k < length (planned (go_ord out)))%nat by (apply nth_error_Some; congruence).
    assert (bnd (go_ph out) 1 <= bnd (go_ph out) (2 * k + 2))%nat by (apply p_mono; lia). lia.
  - split; [|eapply after_landing; eauto]. eapply inside_switch; eauto. exists j. split; auto. lia.
Qed.
Print Assumptions C78_feet_partial.
Print Assumptions C78_spline_feet_partial.
Print Assumptions C78_height_partial.
Print Assumptions C78_weight.
Print Assumptions C78_planner_keeps_places.
Print Assumptions C78_merge_points.

(** ** Example and refutation: one step of the right foot with impact at [T] *)
Definition rightAt (T : R) : step := MkStep (V2 (2/10) (-1/10)) 0 T "right".
Definition seamR (T : R) : footprint := MkFP [sR0; rightAt T] "right".
Definition seamSrt (T : R) : list tstep := [MkT true 0 sL0; MkT false 0 sR0; MkT false 1 (rightAt T)].
Definition stay (l r : footprint) (_ _ : R) : footprint * footprint * bool := (l, r, true).
Lemma stay_keeps : keeps_places stay.
Proof. intros l r i t l2 r2 a b Ha Hb _ _ E. injection E as <- <-. exists a, b. rewrite Ha, Hb. auto 10. Qed.
Lemma seam_sort : forall T, 0 < T -> sort_result (fp_steps lrL) (fp_steps (seamR T)) (seamSrt T).
Proof. intros T HT. split; [apply Permutation_refl|]. repeat constructor; unfold tle; cbn; lra. Qed.
Lemma seam_walk : forall T, 0 < T -> walk (fp_steps lrL) (fp_steps (seamR T)) 0 T T.
Proof.
  intros T HT. split; try discriminate.
  - repeat constructor.
  - repeat constructor. cbn. lra.
  - intros [|] s E; injection E as <-; cbn; lra.
  - intros [|] i s [Hi E]; destruct i as [|[|i]]; try lia; try discriminate; [|destruct i; discriminate]. injection E as <-. cbn. lra.
  - intros [|] i s [|] i' s' [Hi E] [Hi' E'] N; destruct i as [|[|i]]; try lia; try discriminate; destruct i' as [|[|i']]; try lia; try discriminate; try (destruct i; discriminate); try (destruct i'; discriminate). congruence.
Qed.
Lemma seam_suits : forall g dT T, gn_set g = gset_new -> gn_feet g = Some (feet_history [FHeight (5/100)]) -> gn_com g = None -> gn_dcm g = None -> gn_cub g = None ->
  0 < dT <= 1 -> 4 <= T -> suits dT T T g.
Proof.
  intros g dT T E1 E2 E3 E4 E5 Hd HT. unfold suits, sampled_finely. rewrite E1. cbn [g_endSwitch g_switchPct g_nomStep gset_new].
  assert (M : Rmin (1/2) (1 - 1/2) = 1/2) by (unfold Rmin; destruct (Rle_dec _ _); lra). rewrite M.
  split; [lra|]. split; [lra|]. split; [lra|]. right. split; [lra|]. split; [|congruence|congruence|congruence]. intros c E. assert (c = feet_history [FHeight (5/100)]) by congruence. subst c. rewrite swing_height. lra.
Qed.
(** The first generation. *)
Lemma seam_first : forall spl hspl fspl T dT tot sw en, (forall T a m, 0 < T -> clamped T a m (hspl T a m)) -> 0 < dT <= 1 -> 4 <= T <= 10 ->
  INR tot - / 2 <= T / dT < INR tot + / 2 -> INR sw - / 2 <= T / 2 / dT < INR sw + / 2 -> INR en - / 2 <= 1 / dT < INR en + / 2 -> (0 < sw < tot)%nat -> (0 < en)%nat ->
  exists g out, generate_from spl hspl fspl with_swing lrL (seamR T) 0 dT (seamSrt T) = (g, Done) /\ gn_ph g = Have out
  /\ generate_phases (settings_after []) lrL (seamR T) 0 dT (seamSrt T) = Ok out
  /\ gn_left g = lrL /\ gn_right g = seamR T /\ gn_set g = gset_new /\ gn_feet g = Some (feet_history [FHeight (5/100)]) /\ gn_com g = None /\ gn_dcm g = None /\ gn_cub g = None
  /\ ph_shift (go_ph out) = [0; sw; tot; tot + en]%nat /\ planned (go_ord out) = [MkT false 1 (rightAt T)] /\ no_empty_phase (go_ph out)
  /\ ph_merge (go_ph out) = [0; tot + en - 1]%nat.
Proof.
  intros spl hspl fspl T dT tot sw en Hc Hd HT Ht Hsw Hen H1 H2. pose proof (seam_sort T ltac:(lra)) as Hs.
  assert (L0 : live None with_swing) by (unfold with_swing; cbn [fold_left]; apply live_call, live_call, live_new).
  assert (D : snd (generate_from spl hspl fspl with_swing lrL (seamR T) 0 dT (seamSrt T)) = Done).
  { apply from_succeeds with (lead := T) (gap := T); auto.
    - apply L0.
    - split; [intros s [<-|[]]; reflexivity|]. split; [intros s [<-|[<-|[]]]; reflexivity|]. split; [discriminate|split; reflexivity].
    - apply seam_walk. lra.
    - apply seam_suits; auto; lra. }
  destruct (generate_from spl hspl fspl with_swing lrL (seamR T) 0 dT (seamSrt T)) as [g o] eqn:G1. cbn [snd] in D. subst o.
  destruct (from_done _ _ _ _ _ _ _ _ _ _ G1) as (out & Gen & Ho & Hl & Hr & _ & _ & _ & _ & K1 & K2 & K3 & _ & K5 & K6 & _).
  exists g, out. split; [reflexivity|]. split; [exact Ho|]. split; [exact Gen|]. do 2 (split; [assumption|]). split; [rewrite K1; reflexivity|]. split; [rewrite K2; reflexivity|]. split; [rewrite K3; reflexivity|]. split; [apply K5; reflexivity|]. split; [rewrite K6; reflexivity|].
  change (gn_set with_swing) with gset_new in Gen.
  unfold generate_phases in Gen. cbn -[Rltb Rleb Rmax create_phases Reqb repeat] in Gen. rewrite (rleb_f dT 0), (rltb_f 0 (Rmax 0 0)) in Gen by (rewrite ?Rmax_left; lra). rewrite (reqb_t 0 0) in Gen by lra. cbn [andb rbind] in Gen.
  unfold create_phases in Gen. cbn [last hd t_step rightAt st_time] in Gen.
  match type of Gen with context [size_ceil ?x] => destruct (size_ceil_nonneg x) as (n & E) end.
  { apply Rlt_le_trans with 0; [lra|]. apply div_nonneg; [|lra]. cbn. lra. }
  rewrite E in Gen. clear E. cbn [rbind cp_loop] in Gen. unfold cp_step in Gen. cbn [c_prev t_step t_left t_idx c_li c_ri c_cur c_lp c_rp c_shift c_merge c_ub Nat.eqb rightAt st_time] in Gen.
  rewrite (rltb_f (T - 0) 0) in Gen by lra. unfold switch_time in Gen. rewrite (reqb_t 0 0) in Gen by lra. cbn [negb andb] in Gen. rewrite (rgtb_f (T - 0)) in Gen by (cbn; lra). cbn [andb] in Gen.
  rewrite (size_round_imp ((T - 0) / dT) tot) in Gen by (rewrite ?Rminus_0_r; try apply div_nonneg; lra). cbn [rbind] in Gen.
  replace (g_switchPct gset_new * (T - 0)) with (T / 2) in Gen by (cbn; field). rewrite andb_false_r in Gen.
  rewrite (size_round_imp (T / 2 / dT) sw) in Gen by (try apply div_nonneg; lra). cbn [rbind] in Gen.
  rewrite sub_size_le in Gen by lia. cbn [rbind] in Gen. cbn -[size_round repeat] in Gen.
  rewrite (size_round_imp (1 / dT) en) in Gen by (try apply div_nonneg; lra). cbn [rbind] in Gen. rewrite sub_size_le in Gen by lia. cbn [rbind] in Gen. injection Gen as <-. cbn [go_ord go_ph ph_shift ph_merge app].
  replace (sw + (tot - sw))%nat with tot by lia. split; [reflexivity|]. split; [reflexivity|]. split; [|reflexivity].
  apply (lr_no_empty _ sw tot (tot + en)); [reflexivity|lia|lia].
Qed.
(** The second one, after which the feet stay where they are. *)
Lemma seam_second : forall spl hspl fspl g r1 t T dT mL mR, (forall T a m, 0 < T -> clamped T a m (hspl T a m)) -> 0 < dT <= 1 -> 4 <= T -> 0 < t ->
  gn_left g = lrL -> gn_right g = seamR T -> gn_set g = gset_new -> gn_feet g = Some (feet_history [FHeight (5/100)]) -> gn_com g = None -> gn_dcm g = None -> gn_cub g = None ->
  present (seamR T) t r1 -> (r1 = sR0 \/ r1 = rightAt T) ->
  exists g' out srt, regenerate spl hspl fspl stay false g t dT (t + 1) mL mR CNone srt = (g', Done) /\ gn_ph g' = Have out
  /\ gn_right g' = MkFP [MkStep (st_pos r1) (st_angle r1) (st_time r1) "right"] "right"
  /\ sort_result (fp_steps (gn_left g')) (fp_steps (gn_right g')) srt
  /\ generate_phases (settings_after []) (gn_left g') (gn_right g') t dT srt = Ok out /\ no_empty_phase (go_ph out)
  /\ (forall x, gn_feet g' <> None /\ (forall TL TR, gn_feetO g' = Have (TL, TR) -> nth_error TR 0 = Some x -> x = rest_at r1)).
Proof.
  intros spl hspl fspl g r1 t T dT mL mR Hc Hd HT Ht El Er E1 E2 E3 E4 E5 Pr Hr.
  assert (P1 : present (gn_left g) t sL0) by (rewrite El; exists [], []; split; [reflexivity|split; [cbn; lra|constructor]]).
  assert (P2 : present (gn_right g) t r1) by (rewrite Er; exact Pr).
  assert (N : 0 <= st_time r1 /\ st_time r1 <= t) by (split; [destruct Hr; subst; cbn; lra|destruct Pr as (? & ? & _ & ? & _); auto]).
  destruct (C43_planner_is_asked stay false g t (t + 1) mL mR CNone sL0 r1 P1 P2 ltac:(cbn; lra) ltac:(lra) ltac:(discriminate) ltac:(discriminate)) as (l1 & q1 & (tl & tr & Nt & K1 & K2) & Hh).
  destruct (Hh l1 q1 true eq_refl) as (g1 & Rp & Gl & Gr). cbn [corr_left corr_right] in *. unfold kept in K1, K2.
  unfold should_reset in Nt. rewrite E4 in Nt. destruct Nt as [_ Nt]. destruct Nt as [-> ->]; [intros [[? _]|[? _]]; discriminate|]. rewrite El in K1. rewrite Er in K2. cbn [fp_name lrL seamR] in K1, K2.
  pose proof (replan_keeps stay false g t (t + 1) mL mR CNone) as (Q1 & Q2 & Q3). pose proof (replan_keeps2 stay false g t (t + 1) mL mR CNone) as (Q4 & Q5 & _). rewrite Rp in *. cbn [fst] in *.
  destruct (sort_exists (fp_steps l1) (fp_steps q1)) as (srt & Hs).
  assert (W : walk (fp_steps l1) (fp_steps q1) t T T).
  { subst l1 q1. split; try discriminate; try (repeat constructor; fail).
    - intros [|] s E; injection E as <-; cbn; lra.
    - intros [|] i s [Hi E]; destruct i as [|[|i]]; try lia; discriminate.
    - intros [|] i s b' i' s' [Hi E]; destruct i as [|[|i]]; try lia; discriminate. }
  assert (D : snd (generate_from spl hspl fspl g1 l1 q1 t dT srt) = Done).
  { apply from_succeeds with (lead := T) (gap := T); auto.
    - split; [apply (sane_eq (with_feet (Some (feet_history [FHeight (5/100)])) gen_new)); [|rewrite Q1; exact E1|rewrite Q2; exact E2|rewrite Q3; exact E5]|congruence].
      rewrite <- with_swing_ok. unfold with_swing. cbn [fold_left]. apply sane_call, sane_call, sane_new.
    - subst l1 q1. split; [intros s [<-|[]]; reflexivity|]. split; [intros s [<-|[]]; reflexivity|]. split; [discriminate|split; reflexivity].
    - apply seam_suits; auto; try congruence; lra. }
  destruct (generate_from spl hspl fspl g1 l1 q1 t dT srt) as [g' o] eqn:G1. cbn [snd] in D. subst o.
  destruct (from_done _ _ _ _ _ _ _ _ _ _ G1) as (out & Gen & Ho & Hl & Hr' & Hf & _ & _ & _ & F1 & F2 & F3 & _ & F5 & F6 & _).
  exists g', out, srt. split; [unfold regenerate; rewrite Rp, Gl, Gr; exact G1|]. split; [exact Ho|]. split; [congruence|]. split; [rewrite Hl, Hr'; exact Hs|].
  rewrite Q1, E1 in Gen. change gset_new with (settings_after []) in Gen. rewrite Hl, Hr'. split; [exact Gen|].
  assert (Ne : no_empty_phase (go_ph out)).
  { apply (C44_regular_walks [] l1 q1 t dT srt out T T Hs W); auto; cbn [settings_after fold_left g_switchPct g_nomStep g_endSwitch gset_new];
      try (assert (M : Rmin (1/2) (1 - 1/2) = 1/2) by (unfold Rmin; destruct (Rle_dec _ _); lra); rewrite M); lra. }
  split; [exact Ne|]. intros x. split; [congruence|]. intros TL TR HT2 Hx.
  rewrite <- Q2 in E2. destruct (Hf _ E2) as ([TL' TR'] & Z & Z2). rewrite HT2 in Z2. injection Z2 as <- <-.
  destruct (generate_inv _ _ _ _ _ _ _ (good_history []) Gen) as (l0 & r0 & _ & _ & _ & _ & _ & _ & _ & _ & P & _).
  destruct (feet_rest [] [FHeight (5/100)] _ _ _ _ _ _ _ _ Hs Gen Ne Z false 0%nat (start_support _ _ _ _ _ _ _ P Ne)) as (first & s & F & St & Y).
  rewrite (start_stands _ _ _ _ _ _ _ _ _ _ P Ne St) in Y. rewrite Hx in Y. injection Y as ->. subst q1. cbn in F. injection F as <-. reflexivity.
Qed.
(** Half a second per sample: the right foot lands at instant 8; at instant 9, the last one and a merge point, the walk is
    planned anew. *)
Example C78_example : forall spl hspl fspl, (forall T a m, 0 < T -> clamped T a m (hspl T a m)) -> exists g g' out out',
  continued spl hspl fspl with_swing g g g' out out' 0 (1/2) (1/2) 9 /\ gn_feet with_swing <> None /\ gn_feet g <> None /\ In 9%nat (ph_merge (go_ph out)).
Proof.
  intros spl hspl fspl Hc. destruct (seam_first spl hspl fspl 4 (1/2) 8 4 2 Hc) as (g & out & G1 & Ho & Gen & El & Er & E1 & E2 & E3 & E4 & E5 & Sh & Pl & Ne & Mg); try (cbn; lra); try lia.
  assert (Pr : present (seamR 4) (0 + INR 9 * (1/2)) (rightAt 4)) by (exists [sR0], []; split; [reflexivity|split; [cbn; lra|constructor]]).
  destruct (seam_second spl hspl fspl g (rightAt 4) (0 + INR 9 * (1/2)) 4 (1/2) sL0 sR0 Hc) as (g' & out' & srt & G2 & Ho' & _ & Hs' & Gen' & Ne' & _); auto; try (cbn; lra).
  exists g, g', out, out'. split; [|split; [discriminate|split; [congruence|rewrite Mg; cbn; auto]]].
  destruct (generate_inv _ _ _ _ _ _ _ (good_history []) Gen) as (l0 & r0 & _ & _ & _ & _ & _ & _ & _ & _ & P & _).
  assert (J : exists j, (j <= length (planned (go_ord out)))%nat /\ (bnd (go_ph out) (2 * j) < 9 < bnd (go_ph out) (2 * j + 1))%nat) by (exists 1%nat; unfold bnd; rewrite Sh, Pl; cbn; lia).
  split; auto.
  - exists [KCfg GAddFeet; KCfg (GFeet (FHeight (5/100)))], [Done; Done]. reflexivity.
  - exists (KFrom lrL (seamR 4) 0 (1/2) (seamSrt 4)), (seamSrt 4). split; [exact G1|]. split; [reflexivity|]. rewrite El, Er. apply seam_sort. lra.
  - exists [], []. split; [reflexivity|constructor].
  - exists stay, false, (0 + INR 9 * (1/2) + 1), sL0, sR0, srt. split; [exact stay_keeps|]. split; [exact G2|exact Hs'].
  - destruct J as (j & J1 & J2). eapply inside_switch; eauto. exists j. split; auto. lia.
  - eapply after_landing; eauto. lra.
Qed.
(** Default settings, one second per sample, and a step that lands at 4.4: the trajectory of the right foot has it down at
    instant 4, which is a merge point.  Planning anew at that instant, at time 4, takes the foot to be where it was before the step. *)
Theorem C78_early_landing_refuted : forall spl hspl fspl, (forall T a m, 0 < T -> clamped T a m (hspl T a m)) -> exists cs g out srt g' TL TR TL' TR' x y,
  session spl hspl fspl gen_new cs = Some (g, [Done; Done; Done]) /\ gn_ph g = Have out /\ In 4%nat (ph_merge (go_ph out)) /\ no_empty_phase (go_ph out) /\ double_support (go_ph out) 4
  /\ keeps_places stay /\ regenerate spl hspl fspl stay false g 4 1 5 sL0 sR0 CNone srt = (g', Done) /\ sort_result (fp_steps (gn_left g')) (fp_steps (gn_right g')) srt
  /\ gn_feetO g = Have (TL, TR) /\ gn_feetO g' = Have (TL', TR') /\ nth_error TR 4 = Some x /\ nth_error TR' 0 = Some y
  /\ p_p (s_x x) = 2/10 /\ p_p (s_x y) = 0.
Proof.
  intros spl hspl fspl Hc. destruct (seam_first spl hspl fspl (44/10) 1 4 2 1 Hc) as (g & out & G1 & Ho & Gen & El & Er & E1 & E2 & E3 & E4 & E5 & Sh & Pl & Ne & Mg); try (cbn; lra); try lia.
  assert (Pr : present (seamR (44/10)) 4 sR0) by (exists [], [rightAt (44/10)]; split; [reflexivity|split; [cbn; lra|repeat constructor; cbn; lra]]).
  destruct (seam_second spl hspl fspl g sR0 4 (44/10) 1 sL0 sR0 Hc) as (g' & out' & srt & G2 & Ho' & Gr & Hs' & Gen' & Ne' & Fy); auto; try (cbn; lra).
  replace (4 + 1) with 5 in G2 by lra.
  destruct (from_done _ _ _ _ _ _ _ _ _ _ G1) as (o1 & _ & X & _ & _ & Hf & _). rewrite Ho in X. injection X as <-. destruct (Hf (feet_history [FHeight (5/100)]) eq_refl) as ([TL TR] & Z & HF).
  destruct (generate_inv _ _ _ _ _ _ _ (good_history []) Gen) as (l0 & r0 & _ & _ & _ & _ & _ & _ & _ & _ & P & _).
  assert (D : double_support (go_ph out) 4) by (eapply inside_switch; eauto; exists 1%nat; unfold bnd; rewrite Sh, Pl; cbn; lia).
  destruct (feet_rest [] [FHeight (5/100)] _ _ _ _ _ _ _ _ (seam_sort (44/10) ltac:(lra)) Gen Ne Z false 4%nat D) as (first & s & F & St & Y).
  assert (Es : s = rightAt (44/10)).
  { rewrite Pl in St. destruct St as [(k & t & K1 & _ & _ & K4 & _)|[_ K]]; [destruct k as [|[|k]]; try discriminate; injection K1 as <-; auto|]. exfalso. specialize (K 0%nat _ eq_refl eq_refl). unfold bnd in K. rewrite Sh in K. cbn in K. lia. }
  assert (Cs : session spl hspl fspl gen_new [KCfg GAddFeet; KCfg (GFeet (FHeight (5/100))); KFrom lrL (seamR (44/10)) 0 1 (seamSrt (44/10))] = Some (g, [Done; Done; Done])).
  { cbn [session perform]. change (gn_call (gn_call gen_new GAddFeet) (GFeet (FHeight (5/100)))) with with_swing. rewrite G1. reflexivity. }
  destruct (C70_one_length spl hspl fspl _ g _ (KRe stay false 4 1 5 sL0 sR0 CNone srt) g' Cs eq_refl G2) as (n & (o2 & O1 & O2 & O3 & _) & F2 & _). rewrite Ho' in O1. injection O1 as <-.
  destruct F2 as (TL' & TR' & HF' & _ & LR); [apply (Fy (rest_at sR0))|].
  destruct (generate_inv _ _ _ _ _ _ _ (good_history []) Gen') as (l0' & r0' & _ & _ & _ & _ & _ & _ & _ & _ & P' & _).
  destruct (start_support _ _ _ _ _ _ _ P' Ne' false) as (p & D1 & _). assert (Ln : (0 < length (ph_right (go_ph out')))%nat) by (apply nth_error_Some; cbn [foot_phases] in D1; congruence).
  destruct (nth_error TR' 0) as [y|] eqn:Ey; [|apply nth_error_None in Ey; lia].
  exists [KCfg GAddFeet; KCfg (GFeet (FHeight (5/100))); KFrom lrL (seamR (44/10)) 0 1 (seamSrt (44/10))], g, out, srt, g', TL, TR, TL', TR', (rest_at (rightAt (44/10))), y.
  split; [exact Cs|]. split; [exact Ho|]. split; [rewrite Mg; cbn; auto|]. do 2 (split; [assumption|]). split; [exact stay_keeps|]. do 4 (split; [assumption|]).
  split; [rewrite <- Es; exact Y|]. split; [exact Ey|]. split; [reflexivity|]. rewrite (proj2 (Fy y) TL' TR' HF' Ey). reflexivity.
Qed.
Print Assumptions C78_early_landing_refuted.
