(** Properties C53 to C57 and C67 to C69: DCM trajectories. *)
From Coq Require Import String Reals Lra Lia ZArith List Bool Sorting.Sorted Sorting.Permutation.
From Verif Require Import Prelude EvalTac Rounding FootPrint GenPhases GenSpec GenProofs GenProofs2 GenProofs3 Properties_Generator
  FeetTraj FeetSpec FeetProofs FeetProofs2 ZMP ZMPSpec ZMPProofs4 ZMPProofs5 DCM DCMSpec DCMProofs DCMProofs2 DCMProofs3 DCMProofs4 DCMProofs5 DCMProofs6.
Import ListNotations.
Open Scope R_scope.
Notation Forall := List.Forall.

(** ** C53 *)
Theorem C53_pendulum : forall s,
  (forall t, moves (ss_pos s) t (ss_vel s t) /\ ss_vel s t = vscale (ss_om s) (vsub (ss_pos s t) (ss_zmp s)))
  /\ ss_pos s (ss_bt s) = ss_bp s
  /\ forall t, sub_pos (SubS s) t = Some (ss_pos s t) /\ sub_vel (SubS s) t = Some (ss_vel s t) /\ sub_zmp (SubS s) t = Some (ss_zmp s).
Proof.
  intros s. split; [intros t; split; [apply ss_moves|apply ss_pendulum]|]. split; [|intros t; repeat split].
  unfold ss_pos. rewrite Rminus_diag_eq by reflexivity. rewrite Rmult_0_r, exp_0. apply vec2_ext; cbn; ring.
Qed.
(** No other motion obeys the equation and passes through the boundary point. *)
Theorem C53_only_solution : forall s X, (forall t, moves X t (vscale (ss_om s) (vsub (X t) (ss_zmp s)))) -> X (ss_bt s) = ss_bp s ->
  forall t, X t = ss_pos s t.
Proof.
  intros s X H E t. unfold ss_pos.
  pose proof (pendulum_unique (ss_om s) (vx (ss_zmp s)) (ss_bt s) (vx (ss_bp s)) (fun t => vx (X t)) ltac:(intros u; apply (H u)) ltac:(cbn; rewrite E; reflexivity) t) as Q1.
  pose proof (pendulum_unique (ss_om s) (vy (ss_zmp s)) (ss_bt s) (vy (ss_bp s)) (fun t => vy (X t)) ltac:(intros u; apply (H u)) ltac:(cbn; rewrite E; reflexivity) t) as Q2.
  cbn in Q1, Q2. apply vec2_ext; cbn; lra.
Qed.
Example C53_example : ss_pos (MkSS 0 1 2 (V2 1 0) 1 (V2 3 0)) 1 = V2 3 0 /\ ss_vel (MkSS 0 1 2 (V2 1 0) 1 (V2 3 0)) 1 = V2 4 0.
Proof. unfold ss_pos, ss_vel. cbn [ss_om ss_zmp ss_bt ss_bp]. replace (2 * (1 - 1)) with 0 by ring. rewrite exp_0. split; apply vec2_ext; cbn; ring. Qed.
Print Assumptions C53_pendulum.
Print Assumptions C53_only_solution.

(** ** C54 *)
(** [s] joins [a] to [b]: it has the requested positions and velocities at its ends, its velocity is its derivative, and
    its ZMP is the DCM minus the velocity over [om]. *)
Definition joins (s : sub) (a b : dpoint) (om : R) : Prop :=
  sub_t0 s = d_t a /\ sub_t1 s = d_t b
  /\ sub_pos s (d_t a) = Some (d_p a) /\ sub_vel s (d_t a) = Some (d_v a) /\ sub_pos s (d_t b) = Some (d_p b) /\ sub_vel s (d_t b) = Some (d_v b)
  /\ exists X V, (forall t, sub_pos s t = Some (X t) /\ sub_vel s t = Some (V t) /\ sub_zmp s t = Some (vsub (X t) (vscale (/ om) (V t)))) /\ c1_curve X V.
Lemma bounds_joins : forall s a b om, bounds s a b om -> om <> 0 -> joins s a b om.
Proof.
  intros s a b om (T0 & T1 & O & F & P0 & V0 & P1 & V1) Ho. do 6 (split; auto). exists (pv s), (vv s). split.
  - intros t. destruct (finite_pos s t F) as [-> ->]. rewrite zmp_value by (auto; congruence). rewrite O. auto.
  - intros t. split; [apply sub_derive; auto|apply sub_cont; auto].
Qed.
Theorem C54_joins : forall five a b om, d_t a < d_t b -> 0 < om ->
  exists s, (if five : bool then mk_5 a b vzero vzero om else mk_3 a b om) = Ok s /\ joins s a b om.
Proof.
  intros five a b om H Ho. destruct five.
  - destruct (mk_5 a b vzero vzero om) as [s| |] eqn:E; try (unfold mk_5 in E; rewrite (proj2 (asserted_true _ _ _)) in E by lra; discriminate).
    exists s. split; auto. apply bounds_joins; [|lra]. apply mk_5_bounds; auto.
  - destruct (mk_3_ok a b om) as (s & E & _); [lra..|]. exists s. split; auto. apply bounds_joins; [|lra]. apply mk_3_bounds; auto.
Qed.
Example C54_example : d_t (MkD 0 (V2 1 2) (V2 3 4)) < d_t (MkD 1 (V2 5 6) (V2 7 8)) /\ 0 < 2.
Proof. cbn. lra. Qed.
(** The quintic also takes an initial acceleration.  It is neither met nor harmless: the integer division at
    src/DCMTrajectoryGeneratorHelper.cpp:607 makes the end position wrong. *)
Theorem C54_initial_acceleration_refuted : exists a b acc om s, d_t a < d_t b /\ 0 < om /\ mk_5 a b acc vzero om = Ok s
  /\ sub_pos s (d_t b) <> Some (d_p b).
Proof.
  exists (MkD 0 vzero vzero), (MkD 1 vzero vzero), (V2 1 0), 1. eexists. split; [cbn; lra|]. split; [lra|]. split.
  - unfold mk_5. rewrite (proj2 (asserted_true _ _ _)) by (cbn; lra). reflexivity.
  - unfold interp6. cbn [d_t d_p d_v]. rewrite Rminus_0_r, (proj2 (Reqb_false 1 0)) by lra. cbn [sub_pos]. intros C. injection C. intros _ C'. revert C'.
    unfold pos6, int_div_1_6, int_div_1_2. cbn [h5 h4 h3 h2 h1 h0 vx vy vzero]. rewrite Rminus_0_r, !pow1. lra.
Qed.
Print Assumptions C54_joins.
Print Assumptions C54_initial_acceleration_refuted.

(** ** Runs of the whole generator *)
Definition dc_after (ops : list dop) : dcfg := fold_left dc_run ops dc_new.
(** What the DCM generator is given, src/UnicycleGenerator.cpp:437-444. *)
Definition dcm_of (c : dcfg) (ops : list gop) (init dT : R) (left right : footprint) (out : genout) : res (dout * dcfg) :=
  dcm_compute c (ztimes_of (settings_after ops)) init dT left right (map t_step (go_ord out)) (go_ph out).
(** End of the trajectories. *)
Definition end_time (dT : R) (out : genout) : R := INR (length (ph_left (go_ph out))) * dT.
(** Settings under which the theorems hold. *)
Definition usable (c : dcfg) : Prop := 0 < dc_om c /\ 0 <= dc_still c < 1.
(** No piece of a double support is shorter than the sampling time. *)
Definition long_pieces (c : dcfg) (ops : list gop) (dT : R) (out : genout) : Prop :=
  let g := settings_after ops in let ph := go_ph out in let m := length (planned (go_ord out)) in
  (g_pause g = true -> dT <= g_endSwitch g /\ dT <= g_switchPct g * g_nomStep g /\ g_endSwitch g + g_switchPct g * g_nomStep g + dT <= g_switchPct g * g_maxStep g)
  /\ dT <= (1 - dc_still c) * (INR (bnd ph (2 * m + 1) - bnd ph (2 * m)) * dT).
(** The initial state: the one given by the user, else at rest midway between the positions of the feet, each moved by
    its offset. *)
Definition initial_state (c : dcfg) (left right : footprint) (p v : vec2) : Prop :=
  dc_init c = Some (p, v)
  \/ dc_init c = None /\ v = vzero /\ exists l0 r0, hd_error (fp_steps left) = Some l0 /\ hd_error (fp_steps right) = Some r0
       /\ midway (vadd (st_pos l0) (dc_offL c)) (vadd (st_pos r0) (dc_offR c)) p.
(** An accepted run of generator and DCM generator. *)
Definition run_ok (ops : list gop) (left right : footprint) (init dT : R) (srt : list tstep) (out : genout) (c : dcfg) : Prop :=
  sort_result (fp_steps left) (fp_steps right) srt /\ generate_phases (settings_after ops) left right init dT srt = Ok out
  /\ named_feet left right /\ no_empty_phase (go_ph out) /\ usable c /\ long_pieces c ops dT out.

Lemma run_facts : forall ops left right init dT srt out c, run_ok ops left right init dT srt out c ->
  exists o l0 r0 p0 v0, hd_error (fp_steps left) = Some l0 /\ hd_error (fp_steps right) = Some r0 /\ start_state c l0 r0 = (p0, v0)
  /\ dcm_of c ops init dT left right out = Ok (o, MkDC (dc_om c) (dc_alpha c) (dc_still c) (dc_last c) (dc_five c) (dc_offL c) (dc_offR c) None)
  /\ length (do_samples o) = length (ph_left (go_ph out))
  /\ (forall i y, nth_error (do_samples o) i = Some y -> exists x, at_time (do_subs o) (INR i * dT) = Some x /\ y = sample_of x (INR i * dT))
  /\ weight_loop c (ph_left (go_ph out)) (do_samples o) (tl (ph_shift (go_ph out))) 0 (fp_steps left) (fp_steps right) = Ok (do_weights o)
  /\ fine ops dT out c p0 v0 dT (do_subs o)
  /\ ((1 <= length (planned (go_ord out)))%nat -> Whole c (ztimes_of (settings_after ops)) dT (map t_step (go_ord out)) (ph_shift (go_ph out)) (length (planned (go_ord out))) (zsf out c) p0 v0 (ph_left (go_ph out)) (do_subs o)).
Proof.
  intros ops left right init dT srt out c (Srt & Gen & Nm & Ne & [Ho Hs] & [L1 L2]).
  destruct (generate_inv _ _ _ _ _ _ _ (good_history ops) Gen) as (l0 & r0 & Hl0 & Hr0 & _).
  destruct (start_state c l0 r0) as [p0 v0] eqn:Es.
  destruct (compute_run ops left right init dT srt out Srt Gen Nm c Ne Ho Hs p0 v0 l0 r0 Hl0 Hr0 Es L1 L2) as (o & C1 & C2 & C3 & C4 & C5).
  destruct (build_run ops left right init dT srt out Srt Gen Nm c Ne Ho Hs p0 v0) as (tr & B1 & B2 & B3).
  assert (tr = do_subs o) by congruence. subst tr.
  exists o, l0, r0, p0, v0. do 8 (split; auto).
Qed.

(** ** C55 *)
(** Not covered: sampling times longer than a piece of a double support, where the property is false (below), phases
    without instants, and settings that the setters accept though they abort the program (C57). *)
Theorem C55_continuous_partial : forall ops left right init dT srt out c, run_ok ops left right init dT srt out c ->
  exists o c' X V, dcm_of c ops init dT left right out = Ok (o, c')
  /\ tiles 0 (end_time dT out) (do_subs o) /\ chain (lasting (do_subs o)) /\ drives (do_subs o) X V
  /\ (exists p v, initial_state c left right p v /\ X 0 = p /\ V 0 = v)
  /\ V (end_time dT out) = vzero
  /\ (exists pre u v, go_ord out = pre ++ [u; v] /\ midway (zmp_of_step c u) (zmp_of_step c v) (X (end_time dT out)))
  /\ length (do_samples o) = length (ph_left (go_ph out))
  /\ forall i y, nth_error (do_samples o) i = Some y ->
     let t := INR i * dT in y = MkDS (Some (X t)) (Some (V t)) (Some (vsub (X t) (vscale (/ dc_om c) (V t)))).
Proof.
  intros ops left right init dT srt out c R. destruct (run_facts _ _ _ _ _ _ _ _ R) as (o & l0 & r0 & p0 & v0 & Hl0 & Hr0 & Hst & Ho & Hlen & Hsam & _ & F & _).
  destruct R as (Srt & Gen & Nm & Ne & [Hom Hs] & _).
  destruct F as (FT & FF & FO & FC & FS & FE & _). set (m := length (planned (go_ord out))) in *.
  assert (EE : end_time dT out = INR (bnd (go_ph out) (2 * m + 1)) * dT) by (unfold end_time; rewrite (left_len ops left right init dT srt out Gen); reflexivity).
  rewrite <- EE in FT, FE. set (E := end_time dT out) in *.
  destruct FS as (s & r & Es & Ls & Ps & Vs).
  assert (Nl : lasting (do_subs o) <> []) by (rewrite Es, lasting_cons by auto; discriminate).
  pose proof (chain_drives _ _ _ FC FT FF Nl) as Dr. set (X := cpos (lasting (do_subs o))) in *. set (V := cvel (lasting (do_subs o))) in *.
  assert (T0 : sub_t0 s = 0) by (rewrite Es in FT; apply FT).
  assert (At : forall t, t <= E -> at_time (do_subs o) t = at_time (lasting (do_subs o)) t).
  { intros t Ht. rewrite Es in FT |- *. eapply at_lasting; [rewrite T0; exact FT|auto|exact Ht]. }
  assert (Fin : forall t x, t <= E -> at_time (do_subs o) t = Some x -> finite x /\ sub_om x = dc_om c).
  { intros t x Ht Hx. rewrite At in Hx by auto. apply at_time_in in Hx. rewrite Forall_forall in FF, FO. auto. }
  eexists o, _, X, V. split; [exact Ho|]. split; [exact FT|]. split; [exact FC|]. split; [exact Dr|]. split.
  { exists p0, v0. split.
    - unfold start_state in Hst. destruct (dc_init c) as [[p v]|] eqn:Ei; [left; congruence|right]. injection Hst as <- <-. repeat split; auto. exists l0, r0. repeat split; auto; unfold mid; cbn; field.
    - destruct Dr as [_ Dr]. destruct (Dr s 0) as [Q1 Q2]; [rewrite Es; left; auto|auto|rewrite T0; lra|]. split; congruence. }
  destruct FE as (e & E1 & E2 & E3). pose proof (Fin E e ltac:(lra) E1) as [Fe _]. rewrite At in E1 by lra.
  destruct (curve_at _ _ _ E1) as [K1 K2]. fold X in K1. fold V in K2.
  destruct (finite_pos e E Fe) as [Q1 Q2]. rewrite <- K1 in Q1. rewrite <- K2 in Q2.
  split; [congruence|]. split.
  { pose proof (ord_length ops left right init dT srt out Gen) as L. fold m in L.
    destruct (nth_error (go_ord out) m) as [u|] eqn:Eu; [|apply nth_error_None in Eu; lia].
    destruct (nth_error (go_ord out) (m + 1)) as [v|] eqn:Ev; [|apply nth_error_None in Ev; lia].
    exists (firstn m (go_ord out)), u, v. split.
    - rewrite <- (firstn_skipn m (go_ord out)) at 1. f_equal. rewrite (skipn_cons _ m _ u Eu). f_equal. replace (S m) with (m + 1)%nat by lia. rewrite (skipn_cons _ _ _ v Ev). f_equal. apply skipn_all2. lia.
    - rewrite Q1 in E2. injection E2 as ->. unfold zsf. rewrite Eu, Ev. split; cbn; field. }
  split; [exact Hlen|]. intros i y Hy t. destruct (Hsam i y Hy) as (x & Hx & ->). fold t in Hx.
  assert (Hi : (i < length (do_samples o))%nat) by (apply nth_error_Some; congruence).
  assert (Ht : t <= E). { unfold t, E, end_time. apply Rmult_le_compat_r; [pose proof (dT_pos ops left right init dT srt out Gen); lra|]. apply le_INR. lia. }
  destruct (Fin t x Ht Hx) as [Fx Ox]. rewrite At in Hx by auto. fold t. rewrite (sample_value _ _ _ Hx Fx) by lra. rewrite Ox. reflexivity.
Qed.
Lemma lr_usable : run_ok [] lrL lrR 0 (1/2) lrSrt (match generate_phases (settings_after []) lrL lrR 0 (1/2) lrSrt with Ok o => o | _ => MkGO [] (MkPh [] [] [] [] true) [] [] [] end) dc_new.
Proof.
  destruct lr_run as (out & G & O & Sh & P). rewrite G. split; [apply lr_sort|]. split; [exact G|]. split; [apply lr_named|].
  split; [eapply lr_no_empty; eauto; lia|]. split; [unfold usable; cbn; lra|].
  unfold long_pieces. rewrite O. cbn [planned lrOrd length]. unfold bnd. rewrite Sh. unfold settings_after. cbn. lra.
Qed.
Example C55_example : exists out, run_ok [] lrL lrR 0 (1/2) lrSrt out dc_new /\ (1 <= length (planned (go_ord out)))%nat /\ alternating (tl (go_ord out)).
Proof.
  eexists. split; [apply lr_usable|]. destruct lr_run as (out & G & O & _). rewrite G, O. split; [cbn; lia|].
  intros [|[|k]] t t' H1 H2; cbn in *; try (destruct k; discriminate); try discriminate. injection H1 as <-. injection H2 as <-. discriminate.
Qed.

(** A step that ends in a double support of four seconds, still for seven eighths of it, sampled every second: the first
    sample after the single support is taken at twice the duration of its piece and lands at four times the distance on
    the wrong side. *)
Theorem C55_short_piece_refuted : exists ops left right init dT srt out dops o c',
  sort_result (fp_steps left) (fp_steps right) srt /\ generate_phases (settings_after ops) left right init dT srt = Ok out
  /\ named_feet left right /\ no_empty_phase (go_ph out) /\ usable (dc_after dops)
  /\ dcm_of (dc_after dops) ops init dT left right out = Ok (o, c')
  /\ exists i y, nth_error (do_samples o) i = Some y /\ ds_p y = Some (V2 (-4/10) (1/2))
     /\ forall X V, drives (do_subs o) X V -> X (INR i * dT) = V2 (1/10) 0.
Proof.
  destruct lr_short as (out & G & O & Sh & P).
  assert (Ec : dc_after [DStill (7/8)] = MkDC (dc_om dc_new) (1/2) (7/8) 0 false vzero vzero None).
  { unfold dc_after. cbn [fold_left]. unfold dc_run, dc_call, dc_new. rewrite rltb_f by lra. reflexivity. }
  set (c := dc_after [DStill (7/8)]) in *.
  assert (Ho : 0 < dc_om c) by (rewrite Ec; cbn; lra).
  assert (Ne : no_empty_phase (go_ph out)) by (eapply lr_no_empty; eauto; lia).
  set (p0 := mid (vadd (st_pos sL0) (dc_offL c)) (vadd (st_pos sR0) (dc_offR c))).
  assert (Ez : settings_after [GoTerminal 4] = MkG (1/2) 4 10 2 true (1/2) (1/2)) by (unfold settings_after; cbn; unfold set_terminalSwitch; rewrite rleb_f by lra; reflexivity).
  assert (Hz : ztimes_of (settings_after [GoTerminal 4]) = ztimes_of (MkG (1/2) 4 10 2 true (1/2) (1/2))) by (rewrite Ez; reflexivity).
  assert (Np : ds_pauses (ztimes_of (settings_after [GoTerminal 4])) (INR 2 * 1 - 0) = false).
  { rewrite Hz. unfold ds_pauses. cbn [ztimes_of z_pause z_max z_end z_nom g_pause g_switchPct g_endSwitch g_maxStep g_nomStep andb]. apply rgtb_f. cbn [INR]. eapply Rle_trans; [|apply Rmax_l]. lra. }
  destruct (lr_build c (ztimes_of (settings_after [GoTerminal 4])) 1 2 4 8 SwitchIn [SwitchIn; Stance; Stance; SwitchOut; SwitchOut; SwitchOut; SwitchOut] p0 vzero
    ltac:(lra) Ho ltac:(lia) ltac:(lia)) as (x & d & f & B & Bx & Bd & Bf); [rewrite Ec; cbn; lra|rewrite Ec; cbn; lra|exact Np|rewrite Ec; reflexivity|rewrite Ec; reflexivity|].
  cbv zeta in B. set (s := MkSS _ _ _ _ _ _) in *.
  assert (Etm : INR 4 * 1 + (INR 8 * 1 - INR 4 * 1) * (1 - dc_still c) = 9 / 2) by (rewrite Ec; cbn [dc_still INR]; lra). rewrite Etm in *.
  assert (E4 : INR 4 * 1 = 4) by (cbn; lra). assert (E8 : INR 8 * 1 = 8) by (cbn; lra). assert (E2 : INR 2 * 1 = 2) by (cbn; lra).
  destruct (mk_3_inv _ _ _ _ Bd) as (D0 & D1 & _). destruct (mk_3_inv _ _ _ _ Bf) as (F0 & F1 & _). cbn [d_t] in D0, D1, F0, F1. rewrite E4 in D0. rewrite E8 in F1.
  assert (X01 : sub_t0 x = 0 /\ sub_t1 x = 2).
  { unfold mk_first in Bx. rewrite Ec in Bx. cbn [dc_five] in Bx. destruct (mk_3_inv _ _ _ _ Bx) as (X0 & X1 & _). cbn [d_t] in X0, X1. rewrite E2 in X1. auto. }
  destruct X01 as [X0 X1].
  assert (Ev := lr_eval x (SubS s) d f X0 X1 E2 E4 D0 D1 F0 F1).
  set (ys := [sample_of x 0; sample_of x 1; sample_of x 2; sample_of (SubS s) 3; sample_of (SubS s) 4; sample_of d 5; sample_of f 6; sample_of f 7]) in *.
  destruct (weights_run [GoTerminal 4] lrL lrR 0 1 lrSrt out lr_sort G c Ne sL0 sR0 eq_refl eq_refl ys) as (ws & W & _); [rewrite P; reflexivity|].
  assert (Dt : 4 + 1 = INR 5 * 1) by (cbn; lra).
  exists [GoTerminal 4], lrL, lrR, 0, 1, lrSrt, out, [DStill (7/8)], (MkDO [x; SubS s; d; f] ys ws). eexists.
  split; [apply lr_sort|]. split; [exact G|]. split; [apply lr_named|]. split; [exact Ne|]. split; [fold c; split; [exact Ho|rewrite Ec; cbn; lra]|]. split.
  { fold c. unfold dcm_of, dcm_compute. replace (dc_init c) with (@None (vec2 * vec2)) by (rewrite Ec; reflexivity). cbn [lrL lrR fp_steps rbind fst snd]. fold p0.
    rewrite (rleb_f 1 0) by lra. rewrite (rltb_f 0) by (cbn; rewrite Rmax_left; lra).
    replace (pause_ok (ztimes_of (settings_after [GoTerminal 4]))) with true.
    2:{ rewrite Hz. unfold pause_ok. cbn [ztimes_of z_pause z_max z_end z_nom g_pause g_switchPct g_endSwitch g_maxStep g_nomStep andb]. rewrite !rltb_f, rleb_f by lra. reflexivity. }
    cbn [negb]. rewrite O, Sh, P, B. cbn [rbind]. rewrite Ev. cbn [rbind]. rewrite Sh, P in W. cbn [lrL lrR fp_steps] in W. rewrite W. reflexivity. }
  exists 5%nat, (sample_of d 5). split; [reflexivity|]. cbn [ds_p sample_of do_subs].
  assert (Bp : vadd (vscale (1 - dc_last c) (st_pos sL0)) (vscale (dc_last c) (st_pos sR1)) = st_pos sL0) by (rewrite Ec; apply vec2_ext; cbn; lra).
  split.
  - rewrite Bp in Bd. replace (ss_vel s (INR 4 * 1)) with vzero in Bd.
    2:{ unfold ss_vel, s. cbn [ss_zmp ss_bp]. rewrite Bp. apply vec2_ext; cbn; ring. }
    unfold mk_3 in Bd. rewrite (proj2 (asserted_true _ _ _)) in Bd by (cbn [d_t]; rewrite E4; lra). cbn [d_t d_p d_v] in Bd. rewrite E4 in Bd.
    unfold interp4 in Bd. replace (9 / 2 - 4) with (/ 2) in Bd by field. rewrite (proj2 (Reqb_false (/ 2) 0)) in Bd by lra. injection Bd as <-.
    cbn [sub_pos]. f_equal. unfold pos4. cbn [k3 k2 k1 k0 vx vy vzero mid st_pos sL0 sR1 vadd vscale]. apply vec2_ext; cbn [vx vy]; field.
  - intros X V [_ D]. destruct (D f 5) as [Q _]; [cbn; auto|lra|lra|]. pose proof (mk_3_rest _ _ _ _ _ Bf ltac:(rewrite E8; lra)) as Rs.
    rewrite <- Dt. replace (4 + 1) with 5 by ring. destruct (Rs 5) as [R1 _]. rewrite R1 in Q. injection Q as <-. apply vec2_ext; cbn; field.
Qed.

(** If the feet alternate, the DCM ends midway between the ZMPs of the feet on their last steps. *)
Theorem C55_ends_between_the_feet : forall ops left right init dT srt out c o c' X V, run_ok ops left right init dT srt out c ->
  dcm_of c ops init dT left right out = Ok (o, c') -> drives (do_subs o) X V -> alternating (tl (go_ord out)) ->
  exists sl sr, last (map Some (fp_steps left)) None = Some sl /\ last (map Some (fp_steps right)) None = Some sr
  /\ midway (world_of sl (dc_offL c)) (world_of sr (dc_offR c)) (X (end_time dT out)).
Proof.
  intros ops left right init dT srt out c o c' X V R Ho Dr Alt. destruct (C55_continuous_partial _ _ _ _ _ _ _ _ R) as (o1 & c1 & X1 & V1 & Ho1 & T & _ & Dr1 & _ & _ & (pre & u & v & Eo & Mid) & _).
  assert (o1 = o) by congruence. subst o1.
  assert (Ep : 0 < end_time dT out /\ X (end_time dT out) = X1 (end_time dT out)).
  { destruct (run_facts _ _ _ _ _ _ _ _ R) as (o2 & l0 & r0 & p0 & v0 & _ & _ & _ & Ho2 & _ & _ & _ & F & _). assert (o2 = o) by congruence. subst o2. destruct F as (_ & _ & _ & _ & (s & r & Es & Ls & _) & _).
    assert (0 < end_time dT out). { rewrite Es in T. destruct T as (T0 & T1 & T2). apply tiles_le in T2. lra. }
    split; auto. destruct (at_time_tiles _ _ _ (end_time dT out) T ltac:(lra)) as (x & _ & Ix & Hx). destruct (proj2 Dr x (end_time dT out) Ix ltac:(lra) ltac:(lra)) as [Q1 _]. destruct (proj2 Dr1 x (end_time dT out) Ix ltac:(lra) ltac:(lra)) as [Q2 _]. congruence. }
  destruct Ep as [_ ->]. destruct R as (Srt & Gen & _).
  destruct (generate_inv _ _ _ _ _ _ _ (good_history ops) Gen) as (l0 & r0 & Hl0 & Hr0 & _).
  destruct (final_steps ops left right init dT srt out Srt Gen l0 r0 Hl0 Hr0 Alt) as (u' & v' & Hu & Hv & N & La).
  set (m := length (planned (go_ord out))) in *.
  assert (Lm : length pre = m). { pose proof (ord_length ops left right init dT srt out Gen) as L. fold m in L. rewrite Eo, app_length in L. cbn in L. lia. }
  assert (u' = u). { rewrite Eo, nth_error_app2 in Hu by lia. rewrite Lm, Nat.sub_diag in Hu. cbn in Hu. congruence. }
  assert (v' = v). { rewrite Eo, nth_error_app2 in Hv by lia. replace (m + 1 - length pre)%nat with 1%nat in Hv by lia. cbn in Hv. congruence. } subst u' v'.
  assert (Lst : forall (l : list step) f, hd_error l = Some f -> last (map Some l) None = Some (last l f)).
  { intros l f H. destruct l as [|a l]; [discriminate|]. clear H. revert a. induction l as [|b l IH]; intros a; [reflexivity|]. exact (IH b). }
  exists (last (fp_steps left) l0), (last (fp_steps right) r0). split; [apply Lst; auto|]. split; [apply Lst; auto|].
  unfold zmp_of_step, offset_of in Mid. pose proof (La u (or_introl eq_refl)) as Lu. pose proof (La v (or_intror eq_refl)) as Lv.
  destruct (t_left u), (t_left v); try congruence; cbn [foot_list] in Lu, Lv; rewrite Lu, Lv; [exact Mid|]. destruct Mid as [M1 M2]. split; [rewrite M1|rewrite M2]; field.
Qed.

(** For the requested share of the last double support the DCM does not move. *)
Theorem C55_stands_still : forall ops left right init dT srt out c o c' X V, run_ok ops left right init dT srt out c ->
  dcm_of c ops init dT left right out = Ok (o, c') -> drives (do_subs o) X V -> (1 <= length (planned (go_ord out)))%nat -> 0 < dc_still c ->
  let E := end_time dT out in let T := E - INR (bnd (go_ph out) (2 * length (planned (go_ord out)))) * dT in
  forall t, E - dc_still c * T <= t <= E -> X t = X E /\ V t = vzero.
Proof.
  intros ops left right init dT srt out c o c' X V R Ho Dr Hm Hst E T t Ht.
  destruct (run_facts _ _ _ _ _ _ _ _ R) as (o2 & l0 & r0 & p0 & v0 & _ & _ & _ & Ho2 & _ & _ & _ & _ & W). assert (o2 = o) by congruence. subst o2. specialize (W Hm).
  destruct (W_end _ _ _ _ _ _ _ _ _ _ _ W) as (pre & d & f & Etr & D0 & D1 & F0 & F1 & _ & _ & F). destruct R as (Srt & Gen & Nm & Ne & [Hom Hs] & _).
  set (m := length (planned (go_ord out))) in *.
  assert (EE : E = INR (bnd (go_ph out) (2 * m + 1)) * dT) by (unfold E, end_time; rewrite (left_len ops left right init dT srt out Gen); reflexivity).
  assert (EB : b dT (ph_shift (go_ph out)) (2 * m + 1) = E) by (rewrite EE; reflexivity).
  assert (TM : tm c dT (ph_shift (go_ph out)) m = E - dc_still c * T). { unfold tm. rewrite EB. unfold T, b, bnd. ring. }
  rewrite TM in *. rewrite EB in F1.
  assert (Tp : 0 < T). { unfold T. rewrite EE. pose proof (strict ops left right init dT srt out Gen Ne (2 * m)%nat ltac:(fold m; lia)) as Q. replace (S (2 * m)) with (2 * m + 1)%nat in Q by lia. pose proof (dT_pos ops left right init dT srt out Gen).
    apply lt_INR in Q. unfold bnd. apply (Rmult_lt_compat_r dT) in Q; lra. }
  assert (Lf : sub_t0 f < sub_t1 f) by (rewrite F0, F1; assert (0 < dc_still c * T) by (apply Rmult_lt_0_compat; lra); lra).
  assert (If : In f (do_subs o)) by (rewrite Etr; apply in_or_app; right; right; left; auto).
  assert (Q : forall t, E - dc_still c * T <= t <= E -> Some (X t) = Some (fin m (zsf out c)) /\ Some (V t) = Some vzero).
  { intros t' Ht'. destruct (proj2 Dr f t' If Lf ltac:(rewrite F0, F1; lra)) as [<- <-]. apply F; auto. }
  destruct (Q t Ht) as [Q1 Q2]. destruct (Q E) as [Q3 _]; [rewrite F0, F1 in Lf; lra|]. split; congruence.
Qed.

(** A double support longer than the pause threshold rests in the middle: from the end of the first switch to the
    beginning of the last one the DCM stays midway between the ZMPs of two feet. *)
Theorem C55_pauses : forall ops left right init dT srt out c o c' X V j, run_ok ops left right init dT srt out c ->
  dcm_of c ops init dT left right out = Ok (o, c') -> drives (do_subs o) X V -> (j < length (planned (go_ord out)))%nat ->
  let g := settings_after ops in let t0 := INR (bnd (go_ph out) (2 * j)) * dT in let t1 := INR (bnd (go_ph out) (2 * j + 1)) * dT in
  g_pause g = true -> g_switchPct g * g_maxStep g < t1 - t0 -> g_endSwitch g + g_switchPct g * g_nomStep g < t1 - t0 ->
  exists P, (forall t, t0 + g_endSwitch g <= t <= t1 - g_switchPct g * g_nomStep g -> X t = P /\ V t = vzero)
  /\ (alternating (tl (go_ord out)) -> exists u v, nth_error (go_ord out) j = Some u /\ nth_error (go_ord out) (S j) = Some v /\ t_left u <> t_left v
      /\ midway (zmp_of_step c u) (zmp_of_step c v) P).
Proof.
  intros ops left right init dT srt out c o c' X V j R Ho Dr Hj g t0 t1 Hp Hmax Hsum.
  destruct (run_facts _ _ _ _ _ _ _ _ R) as (o2 & l0 & r0 & p0 & v0 & _ & _ & _ & Ho2 & _ & _ & _ & _ & W). assert (o2 = o) by congruence. subst o2. specialize (W ltac:(lia)).
  destruct (W_pause _ _ _ _ _ _ _ _ _ _ _ W j Hj) as (s & a & Is & S0 & S1 & Sp & An & A0).
  { unfold ds_pauses. cbn [ztimes_of z_pause z_max z_end z_nom]. fold g. rewrite Hp. cbn [andb]. apply rgtb_t. apply Rmax_lub_lt; auto. }
  exists (mid a (zsf out c (j + 1))). split.
  { intros t Ht. destruct (Sp t) as [P1 P2]. cbn [ztimes_of z_end z_nom] in S0, S1. fold g in S0, S1. change (b dT (ph_shift (go_ph out)) (2 * j)) with t0 in S0. change (b dT (ph_shift (go_ph out)) (2 * j + 1)) with t1 in S1.
    destruct (proj2 Dr s t Is) as [Q1 Q2]; [lra|lra|]. rewrite P1 in Q1. rewrite P2 in Q2. split; congruence. }
  intros Alt. destruct R as (Srt & Gen & Nm & Ne & _). pose proof (ord_length ops left right init dT srt out Gen) as L.
  destruct (nth_error (go_ord out) j) as [u|] eqn:Eu; [|apply nth_error_None in Eu; lia].
  destruct (nth_error (go_ord out) (S j)) as [v|] eqn:Ev; [|apply nth_error_None in Ev; lia].
  destruct (first_two ops left right init dT srt out Srt Gen) as (x0 & x1 & Hx0 & Hx1 & _ & _ & Nx).
  exists u, v. split; [auto|]. split; [auto|].
  assert (Ez : zsf out c (j + 1) = zmp_of_step c v) by (unfold zsf; replace (j + 1)%nat with (S j) by lia; rewrite Ev; reflexivity). rewrite Ez.
  destruct j as [|j].
  - assert (u = x0) by congruence. assert (v = x1) by congruence. subst u v. split; [exact Nx|].
    destruct (A0 eq_refl) as (sw & (o0 & o1 & p & q & O0 & O1 & Ep & Esw) & Za).
    assert (o0 = t_step x0) by (rewrite nth_error_map, Hx0 in O0; cbn in O0; congruence). subst o0.
    destruct (nth_error (go_ord out) 2) as [t|] eqn:Et; [|apply nth_error_None in Et; lia].
    assert (Lt : t_left t = t_left x0).
    { pose proof (Alt 0%nat x1 t) as A. assert (A1 : nth_error (tl (go_ord out)) 0 = Some x1) by (destruct (go_ord out); [discriminate|exact Hx1]). assert (A2 : nth_error (tl (go_ord out)) 1 = Some t) by (destruct (go_ord out); [discriminate|exact Et]).
      specialize (A A1 A2). destruct (t_left x0), (t_left x1), (t_left t); congruence. }
    destruct (generate_inv _ _ _ _ _ _ _ (good_history ops) Gen) as (l0' & r0' & _ & _ & _ & _ & _ & _ & _ & _ & P & _). destruct P.
    assert (Pt : nth_error (planned (go_ord out)) 0 = Some t) by (rewrite (planned_nth ops left right init dT srt out Gen); exact Et).
    destruct (p_win 0%nat t Pt) as (W1 & W2 & _).
    assert (B01 : (bnd (go_ph out) (2 * 0) <= 0 < bnd (go_ph out) (2 * 0 + 1))%nat).
    { change (2 * 0)%nat with 0%nat. rewrite p_hd. split; [lia|]. pose proof (strict ops left right init dT srt out Gen Ne 0%nat ltac:(lia)) as Q. fold (bnd (go_ph out) 0) in Q. rewrite p_hd in Q. exact Q. }
    specialize (W1 0%nat B01). specialize (W2 0%nat B01).
    assert (Hsw : sw = t_step x0).
    { destruct (ord_step ops left right init dT srt out Srt Gen Nm c 0%nat x0 Hx0) as [Hx _]. apply nth_error_In in Hx. destruct Nm as [N1 N2]. rewrite Lt in W1, W2. rewrite Esw.
      destruct (t_left x0); cbn [foot_phases foot_list negb] in *.
      - rewrite Ep in W1. cbn in W1. injection W1 as ->. rewrite (N1 _ Hx). reflexivity.
      - rewrite Ep in W2. cbn in W2. injection W2 as ->. rewrite (N2 _ Hx). reflexivity. }
    rewrite Hsw, (proj2 (ord_step ops left right init dT srt out Srt Gen Nm c 0%nat x0 Hx0)) in Za. injection Za as <-. split; cbn; field.
  - rewrite (An ltac:(lia)). unfold zsf. rewrite Eu. split; [|split; cbn; field].
    apply (Alt j); destruct (go_ord out); try discriminate; auto.
Qed.
Example C55_pauses_example : exists out, run_ok [] lrL paR 0 (1/2) paSrt out dc_new /\ (0 < length (planned (go_ord out)))%nat
  /\ g_pause (settings_after []) = true
  /\ g_switchPct (settings_after []) * g_maxStep (settings_after []) < INR (bnd (go_ph out) 1) * (1/2) - INR (bnd (go_ph out) 0) * (1/2)
  /\ g_endSwitch (settings_after []) + g_switchPct (settings_after []) * g_nomStep (settings_after []) < INR (bnd (go_ph out) 1) * (1/2) - INR (bnd (go_ph out) 0) * (1/2).
Proof.
  destruct pa_run as (out & G & Srt & Nm & O & Sh). exists out. split.
  - split; [exact Srt|]. split; [exact G|]. split; [exact Nm|]. split; [eapply lr_no_empty; eauto; lia|]. split; [unfold usable; cbn; lra|].
    unfold long_pieces. rewrite O. cbn [planned length]. unfold bnd. rewrite Sh. unfold settings_after. cbn. lra.
  - rewrite O. unfold bnd. rewrite Sh. unfold settings_after. cbn [nth]. rewrite INR_IZR_INZ. cbn. repeat split; try lia; lra.
Qed.
Print Assumptions C55_continuous_partial.
Print Assumptions C55_short_piece_refuted.
Print Assumptions C55_ends_between_the_feet.
Print Assumptions C55_stands_still.
Print Assumptions C55_pauses.

(** ** C56 *)
(** Whenever weights are reported they are shares of one: also if the ZMPs of the feet coincide. *)
Theorem C56_shares : forall c Z init dT left right ord P o c' w, dcm_compute c Z init dT left right ord P = Ok (o, c') -> In w (do_weights o) ->
  0 <= fst w <= 1 /\ 0 <= snd w <= 1 /\ fst w + snd w = 1.
Proof.
  intros c Z init dT left right ord P o c' w H Hw. unfold dcm_compute in H. apply rbind_ok in H. destruct H as (ini & _ & H).
  destruct (fp_steps left) as [|l0 l] eqn:El; [discriminate|]. destruct (fp_steps right) as [|r0 r] eqn:Er; [discriminate|].
  destruct (Rleb dT 0); [discriminate|]. destruct (Rltb init _); [discriminate|]. destruct (negb _); [discriminate|].
  apply rbind_ok in H. destruct H as (tr & _ & H). apply rbind_ok in H. destruct H as (ys & _ & H). apply rbind_ok in H. destruct H as (ws & Hws & H). injection H as <- <-. cbn [do_weights] in Hw.
  pose proof (weights_range _ _ _ _ _ _ _ _ Hws) as Q. rewrite Forall_forall in Q. destruct w as [a d]. specialize (Q (a, d) Hw). cbn in *. lra.
Qed.
(** Which shares: all on the stance foot in single support; in double support the shares that put the ZMP between the
    feet, if it is there. *)
Theorem C56_weights : forall ops left right init dT srt out c o c', run_ok ops left right init dT srt out c -> dcm_of c ops init dT left right out = Ok (o, c') ->
  length (do_weights o) = length (ph_left (go_ph out)) /\ forall i, (i < length (ph_left (go_ph out)))%nat ->
  exists l0 r0 sl sr z wl wr, hd_error (fp_steps left) = Some l0 /\ hd_error (fp_steps right) = Some r0
  /\ stands_on l0 (planned (go_ord out)) (go_ph out) true i sl /\ stands_on r0 (planned (go_ord out)) (go_ph out) false i sr
  /\ option_map ds_z (nth_error (do_samples o) i) = Some (Some z) /\ nth_error (do_weights o) i = Some (wl, wr)
  /\ (nth_error (ph_left (go_ph out)) i = Some Stance -> wl = 1 /\ wr = 0) /\ (nth_error (ph_left (go_ph out)) i = Some Swing -> wl = 0 /\ wr = 1)
  /\ (nth_error (ph_left (go_ph out)) i = Some SwitchIn \/ nth_error (ph_left (go_ph out)) i = Some SwitchOut ->
      let zl := world_of sl (dc_offL c) in let zr := world_of sr (dc_offR c) in
      zl <> zr -> (exists k, 0 <= k <= 1 /\ z = vadd (vscale k zl) (vscale (1 - k) zr)) -> z = vadd (vscale wl zl) (vscale wr zr)).
Proof.
  intros ops left right init dT srt out c o c' R Ho. destruct (run_facts _ _ _ _ _ _ _ _ R) as (o2 & l0 & r0 & p0 & v0 & Hl0 & Hr0 & _ & Ho2 & Ln & _ & Wl & _). assert (o2 = o) by congruence. subst o2.
  destruct (C55_continuous_partial _ _ _ _ _ _ _ _ R) as (o1 & c1 & X & V & Ho1 & _ & _ & _ & _ & _ & _ & _ & Sm). assert (o1 = o) by congruence. subst o1.
  destruct R as (Srt & Gen & Nm & Ne & _). destruct (weights_run ops left right init dT srt out Srt Gen c Ne l0 r0 Hl0 Hr0 (do_samples o) Ln) as (ws & W1 & W2 & W3).
  assert (ws = do_weights o) by congruence. subst ws. split; auto. intros i Hi. destruct (W3 i Hi) as (sl & sr & [wl wr] & S1 & S2 & Nw & P1 & P2 & P3).
  destruct (nth_error (do_samples o) i) as [y|] eqn:Ey; [|apply nth_error_None in Ey; lia]. specialize (Sm i y Ey). cbv zeta in Sm.
  exists l0, r0, sl, sr. eexists. exists wl, wr. split; [exact Hl0|]. split; [exact Hr0|]. split; [exact S1|]. split; [exact S2|]. split; [rewrite Sm; cbn; reflexivity|]. split; [exact Nw|].
  split; [intros H; specialize (P1 H); injection P1; auto|]. split; [intros H; specialize (P2 H); injection P2; auto|].
  intros H zl zr Nz (k & Hk & Ek). specialize (P3 H). unfold wt in P3. rewrite Ey, Sm in P3. cbn [ds_z] in P3. cbv zeta in P3.
  assert (Fz : forall off s, foot_zmp off s = world_of s off) by (intros off s; unfold foot_zmp, world_of; apply vec2_ext; cbn; ring).
  rewrite !Fz in P3. fold zl zr in P3. rewrite (share_mixes zl zr _ k Nz Hk Ek) in P3. injection P3 as -> ->. exact Ek.
Qed.
Example C56_example : exists out o c', run_ok [] lrL lrR 0 (1/2) lrSrt out dc_new /\ dcm_of dc_new [] 0 (1/2) lrL lrR out = Ok (o, c').
Proof. eexists. destruct (C55_continuous_partial _ _ _ _ _ _ _ _ lr_usable) as (o & c' & _ & _ & Ho & _). exists o, c'. split; [apply lr_usable|exact Ho]. Qed.
Print Assumptions C56_shares.
Print Assumptions C56_weights.

(** ** C57 *)
(** Only the offset of the last step is checked as documented. *)
Theorem C57_ranges_partial : forall c x,
  (snd (dc_call c (DLast x)) = true <-> 0 <= x <= 1)
  /\ (snd (dc_call c (DOmega x)) = true <-> 0 <= x)
  /\ (forall o, snd (dc_call c o) = false -> fst (dc_call c o) = c)
  /\ (snd (dc_call c (DLast x)) = true -> dc_last (fst (dc_call c (DLast x))) = x)
  /\ (snd (dc_call c (DOmega x)) = true -> dc_om (fst (dc_call c (DOmega x))) = x).
Proof.
  intros c x. destruct c as [om al st la fi ol orr ini]. unfold dc_call, Rgtb. split; [|split; [|split; [|split]]].
  - split; intros H; [|rewrite !(proj2 (Rltb_false _ _)) by lra; reflexivity]. revert H. rcases; cbn; intros; try discriminate; lra.
  - split; intros H; [|rewrite (proj2 (Rltb_false _ _)) by lra; reflexivity]. revert H. rcases; cbn; intros; try discriminate; lra.
  - intros o. destruct o; try (cbn; discriminate); rcases; cbn; intros; try discriminate; reflexivity.
  - rcases; cbn; intros; try discriminate; reflexivity.
  - rcases; cbn; intros; try discriminate; reflexivity.
Qed.
Theorem C57_invariant : forall ops, 0 <= dc_om (dc_after ops) /\ 0 <= dc_last (dc_after ops) <= 1.
Proof.
  intros ops. unfold dc_after. assert (I : 0 <= dc_om dc_new /\ 0 <= dc_last dc_new <= 1) by (cbn; lra). revert I. generalize dc_new. induction ops as [|o ops IH]; intros c I; [exact I|]. cbn [fold_left]. apply IH.
  destruct c as [om al st la fi ol orr ini]. cbn in I. unfold dc_run, dc_call, Rgtb. destruct o; cbn [fst dc_om dc_last]; rcases; cbn; lra.
Qed.
(** The guards of setAlpha and setStillnessPercentage join two contradictory conditions: every value is accepted, and the
    next walk aborts. Omega may be zero, with the same effect. *)
Theorem C57_guards_refuted : (forall c x, snd (dc_call c (DAlpha x)) = true /\ snd (dc_call c (DStill x)) = true)
  /\ (exists ops left right init dT srt out, sort_result (fp_steps left) (fp_steps right) srt /\ generate_phases (settings_after ops) left right init dT srt = Ok out
      /\ named_feet left right /\ no_empty_phase (go_ph out)
      /\ dcm_of (dc_after [DStill 2]) ops init dT left right out = UB /\ dcm_of (dc_after [DOmega 0]) ops init dT left right out = UB).
Proof.
  split.
  - intros [om al st la fi ol orr ini] x. unfold dc_call, Rgtb. split; destruct (Rltb x 0) eqn:E1; destruct (Rltb 1 x) eqn:E2; cbn; try reflexivity; apply Rltb_true in E1; apply Rltb_true in E2; lra.
  - destruct lr_run as (out & G & O & Sh & P). exists [], lrL, lrR, 0, (1/2), lrSrt, out. split; [apply lr_sort|]. split; [exact G|]. split; [apply lr_named|]. split; [eapply lr_no_empty; eauto; lia|].
    assert (Pk : pause_ok (ztimes_of (settings_after [])) = true).
    { unfold settings_after. cbn [fold_left]. unfold pause_ok. cbn [gset_new ztimes_of z_pause z_max z_end z_nom g_pause g_switchPct g_endSwitch g_maxStep g_nomStep andb]. rewrite !rltb_f, rleb_f by lra. reflexivity. }
    assert (Im : Rltb 0 (Rmax (st_time sL0) (st_time sR0)) = false) by (apply rltb_f; cbn; rewrite Rmax_left; lra).
    assert (E1 : dc_after [DStill 2] = MkDC (dc_om dc_new) (1/2) 2 0 false vzero vzero None) by (unfold dc_after; cbn [fold_left]; unfold dc_run, dc_call, dc_new; rewrite rltb_f by lra; reflexivity).
    assert (E2 : dc_after [DOmega 0] = MkDC 0 (1/2) (1/10) 0 false vzero vzero None) by (unfold dc_after; cbn [fold_left]; unfold dc_run, dc_call, dc_new; rewrite rltb_f by lra; reflexivity).
    unfold dcm_of, dcm_compute. rewrite E1, E2, O, Sh, P. cbn [dc_init lrL lrR fp_steps rbind fst snd]. rewrite (rleb_f (1/2) 0) by lra. rewrite Im, Pk. cbn [negb].
    unfold build, shift_at, step_at, lrOrd. cbn [map t_step length Nat.ltb Nat.leb sub_size Nat.sub rbind nth_error]. unfold zmp_at. cbn [st_name sL0 sR1 String.eqb Ascii.eqb Bool.eqb rbind].
    unfold add_last, mk_ss. cbn [d_t d_p dc_om dc_new]. unfold asserted at 1 2. split.
    + rewrite (proj2 (Rleb_true _ _)) by (cbn; lra). rewrite (rgtb_t (981/100/(1/2)) 0) by lra. cbn [andb rbind ss_t0 ss_t1]. unfold checked at 1, in_domain, Rgeb. rewrite !(proj2 (Rleb_true _ _)) by (cbn; lra). cbn [andb rbind].
      unfold mk_3 at 1. cbn [d_t dc_still]. rewrite (proj2 (asserted_true _ _ _)) by (cbn; lra). cbn [rbind]. unfold mk_3 at 1. cbn [d_t].
      replace (asserted _ _ _) with false; [reflexivity|]. symmetry. unfold asserted. rewrite (rleb_f) by (cbn; lra). reflexivity.
    + rewrite (rgtb_f 0 0) by lra. rewrite andb_false_r. reflexivity.
Qed.
Example C57_example : snd (dc_call dc_new (DLast (3/2))) = false /\ snd (dc_call dc_new (DLast (1/2))) = true /\ snd (dc_call dc_new (DOmega (-1))) = false.
Proof.
  pose proof (C57_ranges_partial dc_new (3/2)) as (A & _). pose proof (C57_ranges_partial dc_new (1/2)) as (B & _). pose proof (C57_ranges_partial dc_new (-1)) as (_ & C & _).
  split; [|split]; [destruct (snd (dc_call dc_new (DLast (3/2)))); auto; exfalso; destruct (proj1 A eq_refl); lra|apply B; lra|destruct (snd (dc_call dc_new (DOmega (-1)))); auto; exfalso; pose proof (proj1 C eq_refl); lra].
Qed.
Print Assumptions C57_ranges_partial.
Print Assumptions C57_invariant.
Print Assumptions C57_guards_refuted.

(** The documented range of the stillness includes one, but no walk can be generated with it. *)
Theorem C57_full_stillness_refuted : exists ops left right init dT srt out, sort_result (fp_steps left) (fp_steps right) srt
  /\ generate_phases (settings_after ops) left right init dT srt = Ok out /\ named_feet left right /\ no_empty_phase (go_ph out)
  /\ snd (dc_call dc_new (DStill 1)) = true /\ dcm_of (dc_after [DStill 1]) ops init dT left right out = Fail.
Proof.
  destruct lr_short as (out & G & O & Sh & P). exists [GoTerminal 4], lrL, lrR, 0, 1, lrSrt, out. split; [apply lr_sort|]. split; [exact G|]. split; [apply lr_named|]. split; [eapply lr_no_empty; eauto; lia|].
  split; [unfold dc_call, dc_new; rewrite rltb_f by lra; reflexivity|].
  assert (Ec : dc_after [DStill 1] = MkDC (dc_om dc_new) (1/2) 1 0 false vzero vzero None) by (unfold dc_after; cbn [fold_left]; unfold dc_run, dc_call, dc_new; rewrite rltb_f by lra; reflexivity).
  set (c := dc_after [DStill 1]) in *. assert (Ho : 0 < dc_om c) by (rewrite Ec; cbn; lra).
  set (p0 := mid (vadd (st_pos sL0) (dc_offL c)) (vadd (st_pos sR0) (dc_offR c))).
  assert (Hz : ztimes_of (settings_after [GoTerminal 4]) = ztimes_of (MkG (1/2) 4 10 2 true (1/2) (1/2))) by (unfold settings_after; cbn [fold_left gset_run]; unfold set_terminalSwitch; rewrite rleb_f by lra; reflexivity).
  assert (Np : ds_pauses (ztimes_of (settings_after [GoTerminal 4])) (INR 2 * 1 - 0) = false).
  { rewrite Hz. unfold ds_pauses. cbn [ztimes_of z_pause z_max z_end z_nom g_pause g_switchPct g_endSwitch g_maxStep g_nomStep andb]. apply rgtb_f. cbn [INR]. eapply Rle_trans; [|apply Rmax_l]. lra. }
  destruct (lr_build c (ztimes_of (settings_after [GoTerminal 4])) 1 2 4 8 SwitchIn [SwitchIn; Stance; Stance; SwitchOut; SwitchOut; SwitchOut; SwitchOut] p0 vzero
    ltac:(lra) Ho ltac:(lia) ltac:(lia)) as (x & d & f & B & Bx & Bd & Bf); [rewrite Ec; cbn; lra|rewrite Ec; cbn; lra|exact Np|rewrite Ec; reflexivity|rewrite Ec; reflexivity|].
  cbv zeta in B. set (s := MkSS _ _ _ _ _ _) in *.
  assert (Etm : INR 4 * 1 + (INR 8 * 1 - INR 4 * 1) * (1 - dc_still c) = 4) by (rewrite Ec; cbn [dc_still INR]; lra). rewrite Etm in *.
  assert (E4 : INR 4 * 1 = 4) by (cbn; lra). assert (E2 : INR 2 * 1 = 2) by (cbn; lra).
  destruct (mk_3_inv _ _ _ _ Bd) as (D0 & D1 & _). cbn [d_t] in D0, D1. rewrite E4 in D0.
  assert (X01 : sub_t0 x = 0 /\ sub_t1 x = 2).
  { unfold mk_first in Bx. rewrite Ec in Bx. cbn [dc_five] in Bx. destruct (mk_3_inv _ _ _ _ Bx) as (X0 & X1 & _). cbn [d_t] in X0, X1. rewrite E2 in X1. auto. }
  destruct X01 as [X0 X1].
  unfold dcm_of, dcm_compute. replace (dc_init c) with (@None (vec2 * vec2)) by (rewrite Ec; reflexivity). cbn [lrL lrR fp_steps rbind fst snd]. fold p0.
  rewrite (rleb_f 1 0) by lra. rewrite (rltb_f 0) by (cbn; rewrite Rmax_left; lra).
  replace (pause_ok (ztimes_of (settings_after [GoTerminal 4]))) with true.
  2:{ rewrite Hz. unfold pause_ok. cbn [ztimes_of z_pause z_max z_end z_nom g_pause g_switchPct g_endSwitch g_maxStep g_nomStep andb]. rewrite !rltb_f, rleb_f by lra. reflexivity. }
  cbn [negb]. rewrite O, Sh, P, B. cbn [rbind].
  replace (evaluate 1 _ _) with (@Fail (list dsample)); [reflexivity|]. symmetry. unfold evaluate, sub_size. cbn [last Nat.leb Nat.sub rbind].
  rewrite (ev_stay _ _ _ _ 0) by (cbn; lra). rewrite (ev_stay _ _ _ _ 1) by (cbn; lra). rewrite (ev_stay _ _ _ _ 2) by (cbn; lra).
  rewrite (ev_next _ _ _ _ _ 3) by (cbn; lra). rewrite (ev_stay _ _ _ _ 4) by (cbn; lra). rewrite (ev_stop _ _ _ _ _ 5) by (cbn; lra). reflexivity.
Qed.
Print Assumptions C57_full_stillness_refuted.

(** ** C67 *)
Lemma single_instants : forall ops left right init dT srt out i, generate_phases (settings_after ops) left right init dT srt = Ok out ->
  nth_error (ph_left (go_ph out)) i = Some Stance \/ nth_error (ph_left (go_ph out)) i = Some Swing ->
  exists k t, nth_error (planned (go_ord out)) k = Some t /\ (bnd (go_ph out) (2 * k + 1) <= i < bnd (go_ph out) (2 * k + 2))%nat
  /\ (if t_left t then nth_error (ph_left (go_ph out)) i = Some Swing else nth_error (ph_left (go_ph out)) i = Some Stance).
Proof.
  intros ops left right init dT srt out i Gen H.
  assert (Hi : (i < length (ph_left (go_ph out)))%nat) by (apply nth_error_Some; destruct H; congruence).
  destruct (instant_cases _ (good_history ops) left right init dT srt out Gen i Hi) as (j & p & q & Hj & Hb & _ & Q1 & _).
  destruct (generate_inv _ _ _ _ _ _ _ (good_history ops) Gen) as (l0 & r0 & _ & _ & _ & _ & _ & _ & _ & _ & P & _). destruct P.
  destruct (parity j) as (k & [-> | ->]).
  - exfalso. destruct (nth_error (planned (go_ord out)) k) as [t|] eqn:Et.
    + destruct (p_win k t Et) as (W1 & W2 & _). replace (S (2 * k)) with (2 * k + 1)%nat in Hb by lia.
      destruct (t_left t); cbn [foot_phases negb] in *; [specialize (W1 i Hb)|specialize (W2 i Hb)]; destruct H; congruence.
    + apply nth_error_None in Et. assert (k = length (planned (go_ord out))) by lia. subst k. destruct p_end as [E1 E2]. replace (S (2 * length (planned (go_ord out)))) with (2 * length (planned (go_ord out)) + 1)%nat in Hb by lia.
      destruct (last_mover _ _ _); cbn [foot_phases negb] in *; [specialize (E1 i Hb)|specialize (E2 i Hb)]; destruct H; congruence.
  - destruct (nth_error (planned (go_ord out)) k) as [t|] eqn:Et; [|apply nth_error_None in Et; lia]. replace (S (2 * k + 1)) with (2 * k + 2)%nat in Hb by lia. exists k, t. split; auto. split; auto.
    destruct (p_win k t Et) as (_ & _ & W3 & W4). destruct (t_left t); cbn [foot_phases negb] in *; [apply W3|apply W4]; auto.
Qed.
(** In single support the reported ZMP is the ZMP of the foot that stands, if the feet alternate. *)
Theorem C67_stance_zmp_partial : forall ops left right init dT srt out c o c' i y, run_ok ops left right init dT srt out c -> dcm_of c ops init dT left right out = Ok (o, c') ->
  alternating (tl (go_ord out)) -> nth_error (do_samples o) i = Some y ->
  exists l0 r0, hd_error (fp_steps left) = Some l0 /\ hd_error (fp_steps right) = Some r0
  /\ (nth_error (ph_left (go_ph out)) i = Some Stance -> exists s, stands_on l0 (planned (go_ord out)) (go_ph out) true i s /\ ds_z y = Some (world_of s (dc_offL c)))
  /\ (nth_error (ph_left (go_ph out)) i = Some Swing -> exists s, stands_on r0 (planned (go_ord out)) (go_ph out) false i s /\ ds_z y = Some (world_of s (dc_offR c))).
Proof.
  intros ops left right init dT srt out c o c' i y R Ho Alt Hy.
  destruct (run_facts _ _ _ _ _ _ _ _ R) as (o2 & l0 & r0 & p0 & v0 & Hl0 & Hr0 & _ & Ho2 & _ & _ & _ & _ & W). assert (o2 = o) by congruence. subst o2.
  destruct (C55_continuous_partial _ _ _ _ _ _ _ _ R) as (o1 & c1 & X & V & Ho1 & _ & _ & Dr & _ & _ & _ & _ & Sm). assert (o1 = o) by congruence. subst o1. specialize (Sm i y Hy). cbv zeta in Sm.
  destruct R as (Srt & Gen & Nm & Ne & [Hom _] & _). pose proof (dT_pos ops left right init dT srt out Gen) as Hd.
  assert (Main : nth_error (ph_left (go_ph out)) i = Some Stance \/ nth_error (ph_left (go_ph out)) i = Some Swing ->
    exists b s, (if b : bool then nth_error (ph_left (go_ph out)) i = Some Stance else nth_error (ph_left (go_ph out)) i = Some Swing) /\ stands_on (if b then l0 else r0) (planned (go_ord out)) (go_ph out) b i s /\ ds_z y = Some (world_of s (offset_of c b))).
  { intros H. destruct (single_instants _ _ _ _ _ _ _ i Gen H) as (k & t & Et & Hb & Hp).
    destruct (stance_step ops left right init dT srt out Srt Gen l0 r0 Hl0 Hr0 Alt k t i Et Hb) as (u & Eu & Lu & Su).
    assert (Hk : (k < length (planned (go_ord out)))%nat) by (apply nth_error_Some; congruence). specialize (W ltac:(lia)).
    destruct (nth_error (supports (do_subs o)) k) as [s|] eqn:Es; [|apply nth_error_None in Es; rewrite (W_len _ _ _ _ _ _ _ _ _ _ _ W) in Es; lia].
    destruct (W_sup _ _ _ _ _ _ _ _ _ _ _ W k s Es) as (S0 & S1 & So & Sz).
    assert (Is : In (SubS s) (do_subs o)). { apply nth_error_In in Es. unfold supports in Es. apply in_flat_map in Es. destruct Es as (p & I1 & I2). destruct p; cbn in I2; try contradiction. destruct I2 as [->|[]]. exact I1. }
    assert (Hlo : sub_t0 (SubS s) <= INR i * dT <= sub_t1 (SubS s)).
    { cbn [sub_t0 sub_t1]. rewrite S0, S1. unfold b. split; apply Rmult_le_compat_r; try lra; apply le_INR; unfold bnd in Hb; lia. }
    assert (Hlt : sub_t0 (SubS s) < sub_t1 (SubS s)).
    { cbn [sub_t0 sub_t1]. rewrite S0, S1. unfold b. apply Rmult_lt_compat_r; auto. apply lt_INR. unfold bnd in Hb. lia. }
    destruct (proj2 Dr _ _ Is Hlt Hlo) as [Q1 Q2]. cbn in Q1, Q2. injection Q1 as Q1. injection Q2 as Q2.
    exists (t_left u), (t_step u). split; [rewrite Lu; destruct (t_left t); exact Hp|]. split; [exact Su|].
    rewrite Sm. cbn [ds_z]. rewrite <- Q1, <- Q2, ss_pendulum, So. f_equal.
    assert (Ez : ss_zmp s = zmp_of_step c u) by (rewrite Sz; unfold zsf; rewrite Eu; reflexivity). unfold zmp_of_step in Ez. rewrite <- Ez. apply vec2_ext; cbn; field; lra. }
  exists l0, r0. split; auto. split; auto. split; intros H.
  - destruct (Main (or_introl H)) as ([|] & s & Hb & Hs & Hz); [exists s; auto|congruence].
  - destruct (Main (or_intror H)) as ([|] & s & Hb & Hs & Hz); [congruence|exists s; auto].
Qed.
Example C67_example : exists out o c' y, run_ok [] lrL lrR 0 (1/2) lrSrt out dc_new /\ dcm_of dc_new [] 0 (1/2) lrL lrR out = Ok (o, c') /\ alternating (tl (go_ord out))
  /\ nth_error (do_samples o) 4 = Some y /\ nth_error (ph_left (go_ph out)) 4 = Some Stance.
Proof.
  destruct C55_example as (out & R & _ & A). destruct (C55_continuous_partial _ _ _ _ _ _ _ _ R) as (o & c' & _ & _ & Ho & _ & _ & _ & _ & _ & _ & L & _).
  destruct lr_run as (out' & G & _ & _ & P). assert (out' = out) by (destruct R as (_ & G' & _); congruence). subst out'. rewrite P in L.
  destruct (nth_error (do_samples o) 4) as [y|] eqn:Ey; [|apply nth_error_None in Ey; cbn in L; lia]. exists out, o, c', y. rewrite P. repeat (split; [assumption || reflexivity|]). reflexivity.
Qed.

(** The left foot landed first, then the right one; the next step is again made by the right foot, which the generator
    accepts.  While the right foot swings and only the left one stands, the reported ZMP is the place that the right foot
    has left. *)
Theorem C67_same_foot_refuted : exists ops left right init dT srt out c o c' i y, run_ok ops left right init dT srt out c /\ dcm_of c ops init dT left right out = Ok (o, c')
  /\ nth_error (do_samples o) i = Some y /\ nth_error (ph_left (go_ph out)) i = Some Stance
  /\ (forall s, In s (fp_steps left) -> ds_z y <> Some (world_of s (dc_offL c))).
Proof.
  destruct tw_run as (out & G & Srt & Nm & O & Sh & P).
  assert (R : run_ok [] twL lrR 0 (1/2) twSrt out dc_new).
  { split; [exact Srt|]. split; [exact G|]. split; [exact Nm|]. split; [eapply lr_no_empty; eauto; lia|]. split; [unfold usable; cbn; lra|].
    unfold long_pieces. rewrite O. cbn [planned twSrt length]. unfold bnd. rewrite Sh. unfold settings_after. cbn. lra. }
  destruct (run_facts _ _ _ _ _ _ _ _ R) as (o & l0 & r0 & p0 & v0 & Hl0 & Hr0 & _ & Ho & L & _ & _ & _ & W).
  destruct (C55_continuous_partial _ _ _ _ _ _ _ _ R) as (o1 & c1 & X & V & Ho1 & _ & _ & Dr & _ & _ & _ & _ & Sm). assert (o1 = o) by congruence. subst o1.
  destruct (nth_error (do_samples o) 4) as [y|] eqn:Ey; [|apply nth_error_None in Ey; rewrite P in L; cbn in L; lia]. specialize (Sm 4%nat y Ey). cbv zeta in Sm.
  rewrite O, Sh in W. specialize (W (le_n 1)).
  destruct (nth_error (supports (do_subs o)) 0) as [s|] eqn:Es; [|apply nth_error_None in Es; rewrite (W_len _ _ _ _ _ _ _ _ _ _ _ W) in Es; cbn in Es; lia].
  destruct (W_sup _ _ _ _ _ _ _ _ _ _ _ W 0%nat s Es) as (S0 & S1 & So & Sz).
  assert (Is : In (SubS s) (do_subs o)). { apply nth_error_In in Es. unfold supports in Es. apply in_flat_map in Es. destruct Es as (p & I1 & I2). destruct p; cbn in I2; try contradiction. destruct I2 as [->|[]]. exact I1. }
  unfold b in S0, S1. cbn [Nat.mul Nat.add nth] in S0, S1.
  assert (Et : exists tt, tt = INR 4 * (1 / 2) /\ tt = 2) by (eexists; split; [reflexivity|cbn; lra]). destruct Et as (tt & Et & Et2). rewrite <- Et in Sm.
  destruct (proj2 Dr (SubS s) tt Is) as [Q1 Q2]; [cbn [sub_t0 sub_t1]; rewrite S0, S1; cbn; lra|cbn [sub_t0 sub_t1]; rewrite S0, S1; cbn; lra|].
  cbn [sub_pos sub_vel] in Q1, Q2. injection Q1 as Q1. injection Q2 as Q2.
  exists [], twL, lrR, 0, (1/2), twSrt, out, dc_new, o. eexists. exists 4%nat, y. split; [exact R|]. split; [exact Ho|]. split; [exact Ey|]. split; [rewrite P; reflexivity|].
  intros x [<-|[]]. rewrite Sm. cbn [ds_z]. rewrite <- Q1, <- Q2, ss_pendulum, So.
  assert (Ez : ss_zmp s = V2 0 (-1/10)). { rewrite Sz. unfold zsf. rewrite O. cbn. apply vec2_ext; cbn; lra. } rewrite Ez.
  intros C. injection C as C1 C2. cbn in C2. field_simplify in C2; cbn in *; lra.
Qed.
Print Assumptions C67_stance_zmp_partial.
Print Assumptions C67_same_foot_refuted.

(** ** C68 *)
(** The single supports [s] and [s'] follow each other; the curve of [s], continued, meets the one of [s'] at [t]. *)
Definition meet_at (s s' : ssd) (t : R) : Prop := ss_pos s t = ss_pos s' t.
Definition consecutive (tr : list sub) (s s' : ssd) : Prop := exists j, nth_error (supports tr) j = Some s /\ nth_error (supports tr) (S j) = Some s'.

Lemma meet_once : forall s s' a t, ss_om s = ss_om s' -> 0 < ss_om s -> ss_zmp s <> ss_zmp s' -> meet_at s s' a -> meet_at s s' t -> t = a.
Proof.
  intros s s' a t Eo Ho Nz Ha Ht. unfold meet_at, ss_pos in *. rewrite <- Eo in *.
  assert (Ex : forall u v x y, exp (ss_om s * (x - v)) = exp (ss_om s * x) * exp (- (ss_om s * v)) /\ (exp (ss_om s * x) = exp (ss_om s * y) -> x = y) /\ u = u :> R).
  { intros u v x y. split; [rewrite <- exp_plus; f_equal; ring|]. split; auto. intros E. apply exp_inv in E. apply Rmult_eq_reg_l with (ss_om s); lra. }
  rewrite !(proj1 (Ex 0 _ _ 0)) in Ha. rewrite !(proj1 (Ex 0 _ _ 0)) in Ht. apply (proj2 (Ex 0 0 t a)). clear Ex.
  destruct (ss_zmp s) as [z1 z2], (ss_zmp s') as [w1 w2], (ss_bp s) as [b1 b2], (ss_bp s') as [c1 c2]. unfold vadd, vsub, vscale in *. cbn [vx vy] in *.
  injection Ha as A1 A2. injection Ht as T1 T2.
  set (e := exp (- (ss_om s * ss_bt s))) in *. set (e' := exp (- (ss_om s * ss_bt s'))) in *. set (p := exp (ss_om s * t)) in *. set (q := exp (ss_om s * a)) in *.
  assert (K1 : (p - q) * (e * (b1 - z1) - e' * (c1 - w1)) = 0) by lra. assert (K2 : (p - q) * (e * (b2 - z2) - e' * (c2 - w2)) = 0) by lra.
  destruct (Req_dec (p - q) 0) as [|N]; [lra|exfalso]. apply Rmult_integral in K1. apply Rmult_integral in K2. apply Nz.
  destruct K1 as [K1|K1]; [lra|]. destruct K2 as [K2|K2]; [lra|].
  assert (Q1 : q * (e * (b1 - z1) - e' * (c1 - w1)) = 0) by (rewrite K1; ring). assert (Q2 : q * (e * (b2 - z2) - e' * (c2 - w2)) = 0) by (rewrite K2; ring).
  f_equal; lra.
Qed.
Lemma joined : forall ops left right init dT srt out c o c', run_ok ops left right init dT srt out c -> dcm_of c ops init dT left right out = Ok (o, c') -> (1 <= length (planned (go_ord out)))%nat ->
  forall s s', consecutive (do_subs o) s s' -> ss_om s = dc_om c /\ ss_om s' = dc_om c /\ 0 < ss_t1 s < ss_t0 s'
    /\ meet_at s s' (dc_alpha c * (ss_t0 s' + ss_t1 s)) /\ exists j u v, nth_error (go_ord out) (S j) = Some u /\ nth_error (go_ord out) (S (S j)) = Some v /\ ss_zmp s = zmp_of_step c u /\ ss_zmp s' = zmp_of_step c v.
Proof.
  intros ops left right init dT srt out c o c' R Ho Hm s s' (j & Hs & Hs').
  destruct (run_facts _ _ _ _ _ _ _ _ R) as (o2 & l0 & r0 & p0 & v0 & Hl0 & Hr0 & _ & Ho2 & _ & _ & _ & F & W). assert (o2 = o) by congruence. subst o2.
  destruct R as (Srt & Gen & Nm & Ne & [Hom _] & _). pose proof (dT_pos ops left right init dT srt out Gen) as Hd.
  specialize (W Hm). pose proof (W_len _ _ _ _ _ _ _ _ _ _ _ W) as Hl.
  destruct (W_sup _ _ _ _ _ _ _ _ _ _ _ W j s Hs) as (S0 & S1 & So & Sz). destruct (W_sup _ _ _ _ _ _ _ _ _ _ _ W (S j) s' Hs') as (S0' & S1' & So' & Sz').
  destruct (W_next _ _ _ _ _ _ _ _ _ _ _ W j s s' Hs Hs') as (B1 & B2).
  assert (Lj : (S j < length (planned (go_ord out)))%nat) by (rewrite <- Hl; apply nth_error_Some; congruence).
  split; auto. split; auto. split.
  - rewrite S1, S0'. unfold b. assert (Q : forall i, (i < 2 * length (planned (go_ord out)) + 1)%nat -> (nth i (ph_shift (go_ph out)) 0 < nth (S i) (ph_shift (go_ph out)) 0)%nat) by (intros i Hi; apply (strict ops left right init dT srt out Gen Ne i Hi)).
    pose proof (Q (2 * j + 2)%nat ltac:(lia)) as Q2. pose proof (Q (2 * j + 1)%nat ltac:(lia)) as Q1. replace (2 * S j + 1)%nat with (S (2 * j + 2)) by lia. replace (S (2 * j + 1)) with (2 * j + 2)%nat in Q1 by lia.
    split; [apply Rmult_lt_0_compat; auto; apply lt_0_INR; lia|apply Rmult_lt_compat_r; auto; apply lt_INR; lia].
  - split.
    + unfold meet_at. rewrite Rmult_comm, <- B1, <- B2. unfold ss_pos. rewrite Rminus_diag_eq, Rmult_0_r, exp_0 by auto. apply vec2_ext; cbn; ring.
    + assert (Hn : forall k, (k < length (go_ord out))%nat -> exists t, nth_error (go_ord out) k = Some t) by (intros k Hk; destruct (nth_error (go_ord out) k) eqn:E; eauto; apply nth_error_None in E; lia).
      assert (Ho3 : length (go_ord out) = S (S (length (planned (go_ord out))))) by (rewrite (ord_length ops left right init dT srt out Gen); lia).
      destruct (Hn (S j)) as (u & Eu); [lia|]. destruct (Hn (S (S j))) as (v & Ev); [lia|]. exists j, u, v. split; auto. split; auto.
      rewrite Sz, Sz'. unfold zsf. replace (j + 1)%nat with (S j) by lia. replace (S j + 1)%nat with (S (S j)) by lia. rewrite Eu, Ev. auto.
Qed.

(** With the default parameter the curves meet in the middle of the double support between them; in general at
    [alpha * (t1 + t0')], in seconds from the start of the trajectory. *)
Theorem C68_meeting_partial : forall ops left right init dT srt out c o c', run_ok ops left right init dT srt out c -> dcm_of c ops init dT left right out = Ok (o, c') ->
  (1 <= length (planned (go_ord out)))%nat -> forall s s', consecutive (do_subs o) s s' ->
  ss_t1 s < ss_t0 s' /\ meet_at s s' (dc_alpha c * (ss_t0 s' + ss_t1 s)) /\ (dc_alpha c = 1 / 2 -> meet_at s s' (ss_t1 s + (1 - dc_alpha c) * (ss_t0 s' - ss_t1 s))).
Proof.
  intros ops left right init dT srt out c o c' R Ho Hm s s' Hc. destruct (joined _ _ _ _ _ _ _ _ _ _ R Ho Hm s s' Hc) as (_ & _ & H1 & H2 & _).
  split; [lra|]. split; auto. intros Ha. rewrite Ha in *. replace (ss_t1 s + (1 - 1 / 2) * (ss_t0 s' - ss_t1 s)) with (1 / 2 * (ss_t0 s' + ss_t1 s)) by lra. exact H2.
Qed.
Lemma two_usable : forall c, dc_om c = dc_om dc_new -> dc_still c = dc_still dc_new -> exists out, run_ok [] twoL lrR 0 (1/2) twoSrt out c /\ go_ord out = twoOrd.
Proof.
  intros c E1 E2. destruct two_run as (out & G & Srt & Nm & O & Sh). exists out. split; auto. split; auto. split; auto. split; auto. split; [|split].
  - intros i x y Ha Hb. rewrite Sh in *. do 6 (destruct i as [|i]; [cbn in *; try discriminate; injection Ha as <-; injection Hb as <-; lia|]). destruct i; discriminate.
  - unfold usable. rewrite E1, E2. cbn. lra.
  - unfold long_pieces. rewrite O, E2. unfold bnd. rewrite Sh. unfold settings_after. cbn. lra.
Qed.
Example C68_example : exists out o c' s s', run_ok [] twoL lrR 0 (1/2) twoSrt out dc_new /\ dcm_of dc_new [] 0 (1/2) twoL lrR out = Ok (o, c') /\ (1 <= length (planned (go_ord out)))%nat /\ consecutive (do_subs o) s s'.
Proof.
  destruct (two_usable dc_new eq_refl eq_refl) as (out & R & O). destruct (run_facts _ _ _ _ _ _ _ _ R) as (o & l0 & r0 & p0 & v0 & _ & _ & _ & Ho & _ & _ & _ & _ & W).
  assert (Hm : (1 <= length (planned (go_ord out)))%nat) by (rewrite O; cbn; lia). specialize (W Hm). pose proof (W_len _ _ _ _ _ _ _ _ _ _ _ W) as L. rewrite O in L. cbn in L.
  destruct (supports (do_subs o)) as [|s [|s' r]] eqn:E; try discriminate. exists out, o. eexists. exists s, s'. split; [exact R|]. split; [exact Ho|]. split; auto. exists 0%nat. rewrite E. auto.
Qed.

(** [alpha] is not a share of the double support: with 0 or 1 the curves do not meet during the double support at all. *)
Theorem C68_share_refuted : forall a, a = 0 \/ a = 1 -> exists ops left right init dT srt out o c' s s', let c := dc_after [DAlpha a] in
  dc_alpha c = a /\ run_ok ops left right init dT srt out c /\ dcm_of c ops init dT left right out = Ok (o, c') /\ (1 <= length (planned (go_ord out)))%nat /\ consecutive (do_subs o) s s'
  /\ forall t, ss_t1 s <= t <= ss_t0 s' -> ~ meet_at s s' t.
Proof.
  intros a Ha. set (c := dc_after [DAlpha a]).
  assert (Ec : c = MkDC (981 / 100 / (1 / 2)) a (1 / 10) 0 false vzero vzero None).
  { unfold c, dc_after, dc_new. cbn [fold_left]. unfold dc_run, dc_call. rewrite (rltb_f a 0) by lra. reflexivity. }
  destruct (two_usable c) as (out & R & O); [rewrite Ec; reflexivity..|]. destruct (run_facts _ _ _ _ _ _ _ _ R) as (o & l0 & r0 & p0 & v0 & _ & _ & _ & Ho & _ & _ & _ & _ & W).
  assert (Hm : (1 <= length (planned (go_ord out)))%nat) by (rewrite O; cbn; lia). specialize (W Hm). pose proof (W_len _ _ _ _ _ _ _ _ _ _ _ W) as L. rewrite O in L. cbn in L.
  destruct (supports (do_subs o)) as [|s [|s' [|]]] eqn:E; try discriminate.
  assert (Hc : consecutive (do_subs o) s s') by (exists 0%nat; rewrite E; auto).
  exists [], twoL, lrR, 0, (1/2), twoSrt, out, o. eexists. exists s, s'. fold c. cbv zeta. split; [rewrite Ec; reflexivity|]. split; [exact R|]. split; [exact Ho|]. split; auto. split; auto.
  destruct (joined _ _ _ _ _ _ _ _ _ _ R Ho Hm s s' Hc) as (O1 & O2 & H1 & H2 & j & u & v & Eu & Ev & Zu & Zv).
  assert (Nz : ss_zmp s <> ss_zmp s').
  { rewrite Zu, Zv. rewrite O in Eu, Ev. destruct j as [|[|j]]; cbn in Eu, Ev; [| |destruct j; discriminate].
    - injection Eu as <-. injection Ev as <-. unfold zmp_of_step, world_of. rewrite Ec. cbn. intros C. injection C as C1 C2. lra.
    - injection Eu as <-. injection Ev as <-. unfold zmp_of_step, world_of. rewrite Ec. cbn. intros C. injection C as C1 C2. lra. }
  intros t Ht M. assert (Et : t = dc_alpha c * (ss_t0 s' + ss_t1 s)). { eapply (meet_once s s'); eauto; [congruence|rewrite O1, Ec; cbn; lra]. }
  rewrite Ec in Et. cbn [dc_alpha] in Et. destruct Ha as [-> | ->]; lra.
Qed.
Print Assumptions C68_meeting_partial.
Print Assumptions C68_share_refuted.

(** ** C69 *)
(** Without a given initial state the trajectory starts at rest midway between the ZMPs of the feet, if the offsets are
    zero or the feet point along the x axis. *)
Theorem C69_default_start_partial : forall ops left right init dT srt out c o c' l0 r0 y, run_ok ops left right init dT srt out c -> dcm_of c ops init dT left right out = Ok (o, c') ->
  dc_init c = None -> hd_error (fp_steps left) = Some l0 -> hd_error (fp_steps right) = Some r0 ->
  (dc_offL c = vzero /\ dc_offR c = vzero \/ st_angle l0 = 0 /\ st_angle r0 = 0) -> hd_error (do_samples o) = Some y ->
  exists p, midway (world_of l0 (dc_offL c)) (world_of r0 (dc_offR c)) p /\ y = MkDS (Some p) (Some vzero) (Some p).
Proof.
  intros ops left right init dT srt out c o c' l0 r0 y R Ho Hi Hl Hr Hz Hy.
  destruct (C55_continuous_partial _ _ _ _ _ _ _ _ R) as (o1 & c1 & X & V & Ho1 & _ & _ & _ & (p & v & Hst & X0 & V0) & _ & _ & _ & Sm). assert (o1 = o) by congruence. subst o1.
  destruct Hst as [C|(_ & Ev & l & r & Hl' & Hr' & Mp)]; [congruence|]. assert (l = l0) by congruence. assert (r = r0) by congruence. subst l r.
  exists p. split.
  - assert (W : forall s q, q = vzero \/ st_angle s = 0 -> world_of s q = vadd (st_pos s) q) by (intros s q [-> | Ea]; unfold world_of; [|rewrite Ea, cos_0, sin_0]; apply vec2_ext; cbn; ring).
    rewrite !W by tauto. exact Mp.
  - specialize (Sm 0%nat y ltac:(destruct (do_samples o); [discriminate|exact Hy])). cbv zeta in Sm. cbn [INR] in Sm. rewrite Rmult_0_l, X0, V0, Ev in Sm. rewrite Sm. f_equal. f_equal. apply vec2_ext; cbn; ring.
Qed.
Example C69_example : exists out o c' y, run_ok [] lrL lrR 0 (1/2) lrSrt out (dc_after [DOffset (V2 (1/10) 0) (V2 (1/10) 0)]) /\ dcm_of (dc_after [DOffset (V2 (1/10) 0) (V2 (1/10) 0)]) [] 0 (1/2) lrL lrR out = Ok (o, c') /\ hd_error (do_samples o) = Some y.
Proof.
  destruct lr_run as (out & G & O & Sh & P). set (c := dc_after [DOffset (V2 (1/10) 0) (V2 (1/10) 0)]).
  assert (R : run_ok [] lrL lrR 0 (1/2) lrSrt out c).
  { split; [apply lr_sort|]. split; [exact G|]. split; [apply lr_named|]. split; [eapply lr_no_empty; eauto; lia|]. split; [unfold usable; cbn; lra|].
    unfold long_pieces. rewrite O. unfold bnd. rewrite Sh. unfold settings_after. cbn. lra. }
  destruct (C55_continuous_partial _ _ _ _ _ _ _ _ R) as (o & c' & _ & _ & Ho & _ & _ & _ & _ & _ & _ & L & _). rewrite P in L. destruct (do_samples o) as [|y r] eqn:E; [discriminate|].
  exists out, o, c', y. rewrite E. auto.
Qed.
(** The feet point backwards; the offset is 0.1 m towards the toes, so the ZMPs of the feet have [x = -0.1].  The
    trajectory starts at [x = 0.1]. *)
Theorem C69_turned_feet_refuted : exists ops left right init dT srt out c o c' l0 r0 y, run_ok ops left right init dT srt out c /\ dcm_of c ops init dT left right out = Ok (o, c')
  /\ dc_init c = None /\ hd_error (fp_steps left) = Some l0 /\ hd_error (fp_steps right) = Some r0 /\ hd_error (do_samples o) = Some y
  /\ vx (world_of l0 (dc_offL c)) = - (1 / 10) /\ vx (world_of r0 (dc_offR c)) = - (1 / 10) /\ exists p, ds_p y = Some p /\ vx p = 1 / 10.
Proof.
  destruct back_run as (out & G & Srt & Nm & O & Sh & P). set (c := dc_after [DOffset (V2 (1/10) 0) (V2 (1/10) 0)]).
  assert (R : run_ok [] bkL bkR 0 (1/2) bkSrt out c).
  { split; [apply Srt|]. split; [exact G|]. split; [apply Nm|]. split; [eapply lr_no_empty; eauto; lia|]. split; [unfold usable; cbn; lra|].
    unfold long_pieces. rewrite O. unfold bnd. rewrite Sh. unfold settings_after. cbn. lra. }
  destruct (C55_continuous_partial _ _ _ _ _ _ _ _ R) as (o & c' & X & V & Ho & _ & _ & _ & (p & v & Hst & X0 & V0) & _ & _ & L & Sm). rewrite P in L. destruct (do_samples o) as [|y r] eqn:E; [discriminate|].
  exists [], bkL, bkR, 0, (1/2), bkSrt, out, c, o, c', bL0, bR0, y. split; [exact R|]. split; [exact Ho|]. split; [reflexivity|]. split; [reflexivity|]. split; [reflexivity|]. split; [rewrite E; reflexivity|].
  split; [unfold world_of; cbn; rewrite cos_PI, sin_PI; lra|]. split; [unfold world_of; cbn; rewrite cos_PI, sin_PI; lra|].
  rewrite (Sm 0%nat y eq_refl). cbn [ds_p INR]. rewrite Rmult_0_l, X0. exists p. split; auto.
  destruct Hst as [C|(_ & _ & l & r' & Hl' & Hr' & Mp)]; [discriminate|]. injection Hl' as <-. injection Hr' as <-. destruct Mp as [M1 M2]. cbn in M1. lra.
Qed.
Print Assumptions C69_default_start_partial.
Print Assumptions C69_turned_feet_refuted.
