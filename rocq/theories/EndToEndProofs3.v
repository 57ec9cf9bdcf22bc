(** A walk is turned into trajectories; sessions of a user who re-plans. *)
From Coq Require Import String Reals Lra Lia ZArith List Bool Sorted.
From Verif Require Import Prelude EvalTac Rounding FootPrint FootPrintSpec UnicycleFoot PlannerSearch PlannerSpec Planner Properties_Planner
  GenPhases GenSpec GenProofs GenProofs2 GenProofs3 Properties_Generator FeetTraj FeetSpline FeetSplineProofs FeetSpec FeetProofs FeetProofs2 Properties_Feet ZMP ZMPSpec ZMPProofs4 Properties_ZMP
  CoMHeight CoMHeightSpec CoMHeightProofs Properties_CoMHeight DCM DCMSpec Properties_DCM Generator GeneratorSpec GeneratorProofs
  PlannerProofs6 EndToEndSpec EndToEndProofs EndToEndProofs2.
Import ListNotations.
Open Scope R_scope.
Notation Forall := List.Forall.

Lemma walk_weaken : forall l r init lead gap lead', walk l r init lead gap -> lead' <= Rmax 0 lead -> walk l r init lead' gap.
Proof.
  intros l r init lead gap lead' [A B C D E F G] H. split; auto. intros b i s P. destruct (F b i s P) as [F1 F2]. split; auto.
  unfold Rmax in H. destruct (Rle_dec 0 lead); lra.
Qed.

Section From.
Variable spl : R -> R -> R -> R -> R -> R -> pva.
Variable hspl : R -> R -> R -> R -> pva.
Variable fspl : swing_splines.
Hypothesis Hspl : forall T a m, 0 < T -> clamped T a m (hspl T a m).

Record sound (g : gen) : Prop := MkSound {
  so_sane : sane g;
  so_com : forall c, gn_com g = Some c -> exists hops, c = h_history hops
}.

Lemma last_piece : forall ops left right init dT srt out, generate_phases (settings_after ops) left right init dT srt = Ok out ->
  let m := length (planned (go_ord out)) in let ph := go_ph out in
  g_endSwitch (settings_after ops) - dT / 2 <= INR (bnd ph (2 * m + 1) - bnd ph (2 * m)) * dT.
Proof.
  intros ops left right init dT srt out H m ph. destruct (generate_inv _ _ _ _ _ _ _ (good_history ops) H) as (l0 & r0 & _ & _ & Hd & _ & _ & _ & _ & _ & P & _).
  destruct P. fold m in p_endlen. fold ph in p_endlen. rewrite p_endlen. rewrite Nat.add_comm, Nat.add_sub. change (fold_left gset_run ops gset_new) with (settings_after ops).
  pose proof (good_end _ (good_history ops)) as He. change (0 < g_endSwitch (settings_after ops)) in He.
  assert (Q : 0 <= g_endSwitch (settings_after ops) / dT) by (apply Rmult_le_pos; [lra|left; apply Rinv_0_lt_compat; lra]).
  pose proof (nround_bounds _ Q) as [E1 E2].
  set (q := g_endSwitch (settings_after ops) / dT) in *. assert (Eq : g_endSwitch (settings_after ops) = q * dT) by (unfold q; field; lra). clearbody q.
  rewrite Eq. pose proof (Rmult_lt_compat_r dT _ _ Hd E2). lra.
Qed.

(** The cubic feet generator succeeds on a walk without empty phases, whatever the splines. *)
Lemma spline_runs : forall spl2 spl3 ops fops left right init dT srt out, sort_result (fp_steps left) (fp_steps right) srt ->
  generate_phases (settings_after ops) left right init dT srt = Ok out -> no_empty_phase (go_ph out) -> 0 <= f_height (feet_history fops) ->
  exists o, spline_compute spl2 spl3 (feet_history fops) dT (fp_steps left) (fp_steps right) (ph_left (go_ph out)) (ph_right (go_ph out)) (ph_shift (go_ph out)) = Ok o.
Proof.
  intros spl2 spl3 ops fops left right init dT srt out Hs H Hne Hh. set (c := feet_history fops) in *. pose proof (feet_history_ok fops) as Hc. fold c in Hc.
  assert (Hd : 0 < dT). { destruct (generate_inv _ _ _ _ _ _ _ (good_history ops) H) as (? & ? & _ & _ & D & _). auto. }
  set (sw := swing_list spl2 spl3 c dT).
  assert (Lsw : forall n s0 s1, length (sw n s0 s1) = n) by (intros; apply swing_list_length).
  assert (X : forall b, exists T, feet_loop (swing_spline spl2 spl3 c dT) (foot_phases (go_ph out) b) (tl (ph_shift (go_ph out))) 0 (foot_list (fp_steps left) (fp_steps right) b) = Ok T).
  { intros b. destruct (generated_feet ops left right init dT srt out (fun n s0 s1 => Ok (sw n s0 s1)) sw Hs H Hne (fun _ _ _ => eq_refl) Lsw b) as (first & T & F & E & FT).
    exists T. eapply (feet_loop_ext (swing_spline spl2 spl3 c dT) (fun n s0 s1 => Ok (sw n s0 s1)) sw); auto.
    - intros n s0 s1 Hn. apply swing_list_ok; auto.
    - destruct (generate_inv _ _ _ _ _ _ _ (good_history ops) H) as (? & ? & _ & _ & _ & _ & _ & _ & _ & _ & P & _). destruct P.
      intros i u w A B. destruct (ph_shift (go_ph out)) as [|z zs] eqn:Ez.
      + destruct i; cbn in B; [discriminate|destruct i; discriminate].
      + cbn [tl] in *. assert (z = 0%nat) by (unfold bnd in p_hd; rewrite Ez in p_hd; exact p_hd). subst z.
        apply (Hne i); rewrite Ez; assumption. }
  destruct (X true) as (TL & EL). destruct (X false) as (TR & ER). exists (TL, TR).
  unfold spline_compute, spline_foot. rewrite rltb_f by lra. cbn [foot_phases foot_list] in EL, ER. rewrite EL, ER. reflexivity.
Qed.

Definition feet_named (g : gen) (left right : footprint) : Prop :=
  named left /\ named right /\ fp_name left <> fp_name right /\ (gn_dcm g <> None -> fp_name left = "left"%string /\ fp_name right = "right"%string).

Lemma from_succeeds : forall g left right init dT srt lead gap, sound g -> feet_named g left right ->
  walk (fp_steps left) (fp_steps right) init lead gap -> suits dT lead gap g -> sort_result (fp_steps left) (fp_steps right) srt ->
  snd (generate_from spl hspl fspl g left right init dT srt) = Done.
Proof.
  intros g left right init dT srt lead gap [[(ops & Es) Sf Su] Sc] (N1 & N2 & N3 & N4) W (D0 & D1 & D2 & Pl) Hs.
  unfold generate_from.
  assert (Ck : gen_checks left right init dT = true).
  { destruct W as [_ _ W1 W2 W3 _ _]. unfold gen_checks, fp_number. destruct (fp_steps left) as [|l0 l]; [congruence|]. destruct (fp_steps right) as [|r0 r]; [congruence|]. cbn [length Nat.ltb Nat.leb negb andb].
    rewrite (proj2 (String.eqb_neq _ _) N3), rleb_f by lra. cbn [negb andb].
    pose proof (W3 true l0 eq_refl). pose proof (W3 false r0 eq_refl). rewrite rltb_f; [reflexivity|]. apply Rmax_lub; auto. }
  rewrite Ck. cbn [negb]. assert (Es' : gn_set (with_fps left right g) = settings_after ops) by (destruct g; exact Es). rewrite Es'. rewrite Es in D1.
  assert (W0 : walk (fp_steps left) (fp_steps right) init 0 gap) by (eapply walk_weaken; [exact W|apply Rmax_l]).
  destruct (C36_walks_accepted ops left right init dT srt gap D0 N3 Hs D1 D2 W0) as (out & Gen). rewrite Gen.
  set (hz := with_ph _ _).
  assert (E0 : gn_set hz = settings_after ops /\ gn_feet hz = gn_feet g /\ gn_com hz = gn_com g /\ gn_zmp hz = gn_zmp g /\ gn_dcm hz = gn_dcm g /\ gn_cub hz = gn_cub g) by (unfold hz; destruct g; cbn in *; repeat split; auto).
  clearbody hz. destruct E0 as (A1 & A2 & A3 & A4 & A5 & A6).
  assert (Ne : bare g \/ no_empty_phase (go_ph out) /\ plugins_ready dT g /\ dT <= 2 * (g_switchPct (settings_after ops) * g_nomStep (settings_after ops))).
  { destruct Pl as [Pl|[(F1 & F2 & F3) Pr]]; [left; exact Pl|right]. rewrite Es in F1, F2, F3. split; [exact (C44_regular_walks ops left right init dT srt out lead gap Hs W F1 F2 F3 D1 Gen)|]. split; auto.
    pose proof (Rmin_l (g_switchPct (settings_after ops)) (1 - g_switchPct (settings_after ops))).
    pose proof (good_nom _ (good_history ops)) as [Q _]. change (0 < g_nomStep (settings_after ops)) in Q. nra. }
  clear Pl.
  assert (R0 : snd (run_cubic fspl dT left right out hz) = Done).
  { unfold run_cubic. rewrite A6. destruct (gn_cub g) as [c|] eqn:Ef; [|reflexivity]. destruct Ne as [(B & _)|(Ne & Pr & _)]; [congruence|].
    destruct (Su c eq_refl) as (fops & ->). pose proof (pr_cub _ _ Pr _ Ef) as Hh.
    destruct (spline_runs (sw2 fspl) (sw3 fspl) ops fops left right init dT srt out Hs Gen Ne Hh) as (o & E). rewrite E. reflexivity. }
  pose proof (cub_keeps fspl dT left right out hz) as U. destruct (run_cubic fspl dT left right out hz) as [h0 o0]. cbn [fst snd] in U, R0. subst o0. unfold andthen at 1. cbn [fst snd].
  destruct U as (U1 & U2 & _ & _ & U5 & U6 & U7 & _). rewrite <- U1 in A1. rewrite <- U2 in A2. rewrite <- U7 in A3. rewrite <- U5 in A4. rewrite <- U6 in A5. clear U1 U2 U5 U6 U7.
  assert (R1 : snd (run_feet dT left right out h0) = Done).
  { unfold run_feet. rewrite A2. destruct (gn_feet g) as [c|] eqn:Ef; [|reflexivity]. destruct Ne as [(_ & B & _)|(Ne & Pr & _)]; [congruence|].
    destruct (Sf c eq_refl) as (fops & ->). pose proof (pr_feet _ _ Pr _ Ef) as Hh.
    destruct (C44_still_outside_swing_partial ops fops left right init dT srt out Hs Gen Ne Hh) as (TL & TR & l0 & r0 & E & _). rewrite E. reflexivity. }
  pose proof (feet_keeps dT left right out h0) as F. destruct (run_feet dT left right out h0) as [h1 o1]. cbn [fst snd] in F, R1. subst o1. unfold andthen at 1. cbn [fst snd].
  destruct F as (F1 & F2 & F3 & F4 & F5 & F6 & F7 & _).
  assert (R2 : snd (run_zmp spl init dT left right out h1) = Done).
  { unfold run_zmp. rewrite F5, A4. destruct (gn_zmp g) as [c|] eqn:Ef; [|reflexivity]. destruct Ne as [(_ & _ & B & _)|(Ne & Pr & Dn)]; [congruence|]. rewrite F1, A1.
    destruct (run_total spl _ (good_history ops) left right init dT srt out Gen Hs N1 N2 c Ne) as (zo & Hz).
    - intros _. unfold ZMPProofs.n2. apply FeetProofs2.nround_pos. apply (Rmult_le_reg_r dT); auto. cbn [ztimes_of z_nom]. change (g_switchPct (fold_left gset_run ops gset_new)) with (g_switchPct (settings_after ops)). change (g_nomStep (fold_left gset_run ops gset_new)) with (g_nomStep (settings_after ops)). field_simplify; lra.
    - change (ztimes_of (settings_after ops)) with (ztimes_of (fold_left gset_run ops gset_new)). rewrite Hz. reflexivity. }
  pose proof (zmp_keeps spl init dT left right out h1) as Z. destruct (run_zmp spl init dT left right out h1) as [h2 o2]. cbn [fst snd] in Z, R2. subst o2. unfold andthen at 1. cbn [fst snd].
  destruct Z as (Z1 & Z2 & Z3 & Z4 & Z5 & Z6 & _).
  assert (R3 : snd (run_dcm init dT left right out h2) = Done).
  { unfold run_dcm. rewrite Z5, F6, A5. destruct (gn_dcm g) as [d|] eqn:Ef; [|reflexivity]. destruct Ne as [(_ & _ & _ & B & _)|(Ne & Pr & Dn)]; [congruence|]. rewrite Z1, F1, A1.
    destruct (pr_dcm _ _ Pr _ Ef) as (P1 & P2 & P3 & P4). rewrite Es in P3, P4. destruct N4 as [M1 M2]; [discriminate|].
    assert (Ro : run_ok ops left right init dT srt out (dm_cfg d)).
    { split; [exact Hs|]. split; [exact Gen|]. split; [split; intros s Is; [rewrite (N1 s Is)|rewrite (N2 s Is)]; auto|]. split; [exact Ne|]. split; [split; auto|]. split; [exact P4|].
      pose proof (last_piece _ _ _ _ _ _ _ Gen) as Lp. cbv zeta in Lp |- *. eapply Rle_trans; [exact P3|]. apply Rmult_le_compat_l; [lra|exact Lp]. }
    destruct (run_facts _ _ _ _ _ _ _ _ Ro) as (o & l0 & r0 & p0 & v0 & _ & _ & _ & Hd & _). unfold dcm_of in Hd. rewrite Hd. reflexivity. }
  pose proof (dcm_keeps init dT left right out h2) as D. destruct (run_dcm init dT left right out h2) as [h3 o3]. cbn [fst snd] in D, R3. subst o3. unfold andthen at 1. cbn [fst snd].
  destruct D as (E1 & E2 & E3 & E4 & E5 & E6 & _).
  unfold run_com. rewrite E6, Z6, F7, A3. destruct (gn_com g) as [c|] eqn:Ef; [|reflexivity]. destruct Ne as [(_ & _ & _ & _ & B)|(Ne & Pr & Dn)]; [congruence|].
  destruct (Sc c eq_refl) as (hops & ->). pose proof (pr_com _ _ Pr _ Ef) as Hh.
  destruct (C52_nominal_in_double_support_partial ops hops left right init dT srt out hspl Hspl Hs Gen Ne Hh) as (H & E & _). rewrite E. reflexivity.
Qed.
End From.
