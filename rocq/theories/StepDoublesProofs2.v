(** Accepted steps are within the limits. *)
From Coq Require Import Reals ZArith Lra Lia List Bool Psatz.
From Flocq Require Import Core IEEE754.BinarySingleNaN.
From Verif Require Import Prelude Rounding RoundedGen RoundedGenSpec RoundedGenProofs2 RoundedGenProofs3 RoundedGenProofs4
  EvalTac Doubles DoublesSpec DoublesProofs DoublesProofs2 CtrlDoubles CtrlDoublesSpec CtrlDoublesProofs TrackDoublesProofs TimedPlan StepDoubles StepDoublesSpec StepDoublesProofs.
Import ListNotations.
Open Scope R_scope.

Lemma apart_sym : forall a b, apart a b = apart b a.
Proof. intros. unfold apart. f_equal. ring. Qed.
Lemma abs_below : forall d l, fin l = true -> Bltb (a_abs ieee (a_abs ieee d)) l = true -> fin d = true /\ Rabs (f2r d) < f2r l.
Proof.
  intros d l Fl H. cbn [a_abs ieee] in H. assert (F : fin d = true).
  { destruct d as [z|z| |z m e B]; try reflexivity; exfalso; [|discriminate H]. change (Bltb (B754_infinity false) l = true) in H. destruct l; discriminate. }
  split; auto. rewrite blt_ok in H; auto; [|destruct d; auto]. rcasesh H; [|discriminate].
  assert (E : f2r (Babs (Babs d)) = Rabs (f2r d)) by (unfold f2r; rewrite !B2R_Babs; apply Rabs_Rabsolu). rewrite E in Hc. exact Hc.
Qed.
(** The difference of the headings. *)
Lemma angle_below : forall th yaw u l (flip : bool), fin l = true -> let h := fsub th yaw in
  Bltb (a_abs ieee (a_abs ieee (if flip then fsub u h else fsub h u))) l = true ->
  (fin th = true /\ fin yaw = true /\ fin u = true) /\ Rabs (f2r th - f2r yaw - f2r u) <= f2r l + bpow radix2 (-51) * f2r l + bpow radix2 (-53) * Rabs (f2r th - f2r yaw).
Proof.
  intros th yaw u l flip Fl h H. destruct (abs_below _ _ Fl H) as (F & L). destruct u64_bounds as ((U0 & U1) & EU).
  assert (E : bpow radix2 (-51) = 4 * u64) by (rewrite EU; change (-51)%Z with (2 + -53)%Z; rewrite bpow_plus; reflexivity). rewrite E, <- EU.
  assert (K : fin h = true /\ fin u = true /\ exists d, Rabs d <= u64 /\ Rabs (f2r (if flip then fsub u h else fsub h u)) = Rabs ((f2r h - f2r u) * (1 + d))).
  { destruct flip; destruct (fsub_parts _ _ F); destruct (sub_exact _ _ F) as (d & D & V); repeat (split; [assumption|]); exists d; split; auto; rewrite V; auto.
    rewrite <- Rabs_Ropp. f_equal. ring. }
  destruct K as (Fh & Fu & d & D & V). rewrite V in L. destruct (fsub_parts _ _ Fh) as (Ft & Fy). split; [tauto|]. destruct (sub_exact _ _ Fh) as (d2 & D2 & V2). fold h in V2. rewrite V2 in L.
  set (w := f2r th - f2r yaw) in *. set (v := w * (1 + d2) - f2r u) in *. assert (P : Rabs v * (1 - u64) <= f2r l).
  { rewrite Rabs_mult in L. assert (1 - u64 <= Rabs (1 + d)) by (apply Rabs_le_inv in D; rewrite Rabs_pos_eq; lra). assert (Rabs v * (1 - u64) <= Rabs v * Rabs (1 + d)) by (apply Rmult_le_compat_l; [apply Rabs_pos|lra]). lra. }
  assert (P1 : Rabs v <= f2r l + 4 * u64 * f2r l).
  { pose proof (Rabs_pos v) as V0. assert (W : 1 <= (1 + 4 * u64) * (1 - u64)) by nra. apply Rle_trans with (Rabs v * ((1 + 4 * u64) * (1 - u64))); [rewrite <- (Rmult_1_r (Rabs v)) at 1; apply Rmult_le_compat_l; auto|].
    replace (Rabs v * ((1 + 4 * u64) * (1 - u64))) with ((1 + 4 * u64) * (Rabs v * (1 - u64))) by ring. apply Rle_trans with ((1 + 4 * u64) * f2r l); [apply Rmult_le_compat_l; lra|lra]. }
  replace (w - f2r u) with (v + - (w * d2)) by (unfold v; ring). eapply Rle_trans; [apply Rabs_triang|]. rewrite Rabs_Ropp, Rabs_mult.
  assert (Rabs w * Rabs d2 <= u64 * Rabs w) by (rewrite Rmult_comm; apply Rmult_le_compat_r; [apply Rabs_pos|auto]). lra.
Qed.

(** No overflow for differences that are not too large. *)
Lemma comb_fin : forall cth sth x y, fin cth = true -> fin sth = true -> fin x = true -> fin y = true -> Rabs (f2r cth) <= 2 -> Rabs (f2r sth) <= 2 ->
  Rabs (f2r x) <= bpow radix2 1010 -> Rabs (f2r y) <= bpow radix2 1010 -> fin (fadd (fmul cth x) (fmul sth y)) = true.
Proof.
  intros cth sth x y Fc Fs Fx Fy Bc Bs Bx By. assert (G : forall a b, fin a = true -> fin b = true -> Rabs (f2r a) <= 2 -> Rabs (f2r b) <= bpow radix2 1010 -> fin (fmul a b) = true /\ Rabs (f2r (fmul a b)) <= bpow radix2 1011).
  { intros a b Fa Fb Ba Bb. assert (Q : Rabs (f2r a * f2r b) <= bpow radix2 1011). { rewrite Rabs_mult. change 1011%Z with (1 + 1010)%Z. rewrite bpow_plus. apply Rmult_le_compat; auto; apply Rabs_pos. }
    destruct (fmul_ok a b Fa Fb) as (F & V). { eapply Rle_trans; [exact Q|]. eapply Rle_trans; [|apply pow_top]. apply bpow_le. lia. }
    split; auto. rewrite V. apply b64_abs; auto. apply b64_fix, generic_format_bpow. unfold b64_exp, FLT_exp. lia. }
  destruct (G _ _ Fc Fx Bc Bx) as (F1 & V1). destruct (G _ _ Fs Fy Bs By) as (F2 & V2). apply fadd_ok; auto. eapply Rle_trans; [apply Rabs_triang|].
  apply Rle_trans with (bpow radix2 1012); [change 1012%Z with (1 + 1011)%Z; rewrite bpow_plus; change (bpow radix2 1) with 2; lra|]. eapply Rle_trans; [|apply pow_top]. apply bpow_le. lia.
Qed.

Section Accept.
Variables (sq c s : f64 -> f64) (at2 : f64 -> f64 -> f64).
Let M := ieee_maths sq c s at2.
Hypothesis trig : close_trig c s.
Hypothesis squ : close_square sq.
Variable S : field -> f64.

Lemma ahead_fin : forall th a b, fin th = true -> fin (fst a) = true -> fin (snd a) = true -> fin (fst b) = true -> fin (snd b) = true ->
  apart a b <= bpow radix2 1002 -> fin (fst (g_rotT ieee M th (g_sub ieee b a))) = true.
Proof.
  intros th (ax & ay) (bx & by_) Ft F1 F2 F3 F4 D. unfold g_rotT, g_sub, apart in *. cbn [fst snd a_add a_mul a_sub ieee x_cos x_sin x_opp M ieee_maths] in *.
  set (ex := f2r bx - f2r ax) in *. set (ey := f2r by_ - f2r ay) in *. pose proof (sum_root ex ey) as Q. pose proof (Rabs_pos ex). pose proof (Rabs_pos ey).
  assert (P3 : bpow radix2 1003 = 2 * bpow radix2 1002) by (change 1003%Z with (1 + 1002)%Z; rewrite bpow_plus; reflexivity). pose proof (bpow_gt_0 radix2 1002) as P0.
  assert (G : forall x y, fin x = true -> fin y = true -> Rabs (f2r x - f2r y) <= bpow radix2 1003 -> fin (fsub x y) = true /\ Rabs (f2r (fsub x y)) <= bpow radix2 1010).
  { intros x y Fx Fy B. destruct (fsub_ok x y Fx Fy) as (F & V). { eapply Rle_trans; [exact B|]. eapply Rle_trans; [|apply pow_top]. apply bpow_le. lia. }
    split; auto. rewrite V. apply b64_abs; [apply b64_fix, generic_format_bpow; unfold b64_exp, FLT_exp; lia|]. eapply Rle_trans; [exact B|]. apply bpow_le. lia. }
  destruct (G bx ax F3 F1) as (X1 & X2); [fold ex; lra|]. destruct (G by_ ay F4 F2) as (Y1 & Y2); [fold ey; lra|].
  destruct (trig th) as (T & _). destruct (T Ft) as (Fc & Fs & Tc & Ts). assert (E : bpow radix2 (-52) <= 1) by (apply (bpow_le radix2 (-52) 0); lia).
  apply comb_fin; auto.
  - replace (f2r (c th)) with ((f2r (c th) - cos (f2r th)) + cos (f2r th)) by ring. eapply Rle_trans; [apply Rabs_triang|]. pose proof (cos_abs (f2r th)). lra.
  - replace (f2r (s th)) with ((f2r (s th) - sin (f2r th)) + sin (f2r th)) by ring. eapply Rle_trans; [apply Rabs_triang|]. pose proof (sin_abs (f2r th)). lra.
Qed.

Variables (len width angle : f64) (prob : dprob f64).
Hypothesis Pl : k_len prob = Some len.
Hypothesis Pw : k_width prob = Some width.
Hypothesis Pa : k_angle prob = Some angle.
Hypothesis Fl : fin len = true.
Hypothesis Fw : fin width = true.
Hypothesis Fa : fin angle = true.

Theorem accepted_within : forall (sw flip : bool) prev u dt,
  let h := g_heading ieee S (negb sw) prev in
  k_ok ieee M prob (g_point ieee M S sw prev u (a_abs ieee (if flip then fsub (d_th u) h else fsub h (d_th u))) dt) = true ->
  within_limits len (k_back prob) width angle (g_yaw S (negb sw)) sw prev u (g_pose ieee M S sw u)
  /\ k_inside ieee M (k_free prob) (spot (g_pose ieee M S sw u)) = true.
Proof.
  intros sw flip prev u dt h H. unfold k_ok in H. rewrite !andb_true_iff in H. destruct H as ((((H1 & H2) & H3) & H4) & H5). rewrite Pl in H1. rewrite Pw in H2. rewrite Pa in H3.
  unfold k_below, k_above in H1, H2, H3. cbn [g_point y_rPl y_ang y_pos y_rel] in *. cbn [a_lt ieee] in H1, H2, H3.
  destruct (angle_below (d_th prev) (g_yaw S (negb sw)) (d_th u) angle flip Fa H3) as ((A1 & A2 & A3) & A4).
  assert (Ep : spot (g_pose ieee M S sw u) = g_pos ieee M S sw u) by (unfold g_pose, spot; cbn [d_x d_y]; destruct (g_pos ieee M S sw u); reflexivity).
  split; [|rewrite Ep; exact H4]. change (g_at prev) with (spot prev) in *.
  assert (K : exists th a b, g_rPl ieee M S sw prev u = g_rotT ieee M th (g_sub ieee b a) /\ apart a b = apart (spot prev) (spot (g_pose ieee M S sw u))
              /\ aside th a b = (if sw then aside (d_th prev) (spot prev) (spot (g_pose ieee M S sw u)) else aside (d_th u) (spot (g_pose ieee M S sw u)) (spot prev))
              /\ (a = spot prev /\ b = spot (g_pose ieee M S sw u) \/ b = spot prev /\ a = spot (g_pose ieee M S sw u))).
  { rewrite Ep. unfold g_rPl. destruct sw.
    - exists (d_th prev), (spot prev), (g_pos ieee M S true u). split; [reflexivity|]. split; [reflexivity|]. split; [reflexivity|]. left. auto.
    - exists (d_th u), (g_pos ieee M S false u), (spot prev). split; [reflexivity|]. split; [apply apart_sym|]. split; [reflexivity|]. right. auto. }
  destruct K as (th & a & b & Er & Ea & Es & Eab). rewrite Er in *. destruct (length_below sq c s at2 trig squ th a b len Fl H1) as (F & (G1 & G2) & L0 & L1 & L2).
  rewrite Ea in L1, L2. pose proof (turned_aside sq c s at2 trig th a b G2) as T. fold M in T. rewrite Es, Ea in T. rewrite blt_ok in H2 by auto. rcasesh H2; [|discriminate]. apply Rabs_le_inv in T.
  assert (FF : fin (fst (spot prev)) = true /\ fin (snd (spot prev)) = true /\ fin (fst (spot (g_pose ieee M S sw u))) = true /\ fin (snd (spot (g_pose ieee M S sw u))) = true).
  { destruct F as (_ & X1 & X2 & X3 & X4). destruct Eab as [(<- & <-)|(<- & <-)]; auto. }
  constructor.
  - cbn [spot fst snd] in FF. tauto.
  - exact L1.
  - lra.
  - exact A4.
  - intros bk Eb Fb Hl Hb. rewrite Eb in H5. unfold k_below, g_rel in H5. rewrite <- Ep in H5. change (g_at prev) with (spot prev) in H5.
    assert (B : apart (spot prev) (spot (g_pose ieee M S sw u)) <= bpow radix2 1002).
    { eapply Rle_trans; [exact L1|]. unfold slack. assert (Z1 : bpow radix2 (-48) <= 1) by (apply (bpow_le radix2 (-48) 0); lia). assert (Z2 : bpow radix2 (-520) <= bpow radix2 1000) by (apply bpow_le; lia).
      assert (Z3 : bpow radix2 (-48) * f2r len <= 1 * f2r len) by (apply Rmult_le_compat_r; lra). assert (bpow radix2 1002 = 4 * bpow radix2 1000) by (change 1002%Z with (2 + 1000)%Z; rewrite bpow_plus; reflexivity). lra. }
    destruct FF as (X1 & X2 & X3 & X4). pose proof (ahead_fin (d_th prev) _ _ A1 X1 X2 X3 X4 B) as Fx.
    destruct (turned_ahead sq c s at2 trig (d_th prev) _ _ Fx) as (_ & Tx). fold M in Tx. apply Rabs_le_inv in Tx.
    set (X := fst (g_rotT ieee M (d_th prev) (g_sub ieee (spot (g_pose ieee M S sw u)) (spot prev)))) in *.
    assert (N : Bltb X fzero = true). { rewrite blt_ok by auto. change (f2r fzero) with 0. rcases; auto; lra. }
    rewrite c0_zero in H5. cbn [a_lt ieee] in H5. rewrite N in H5.
    destruct (length_below sq c s at2 trig squ _ _ _ bk Fb H5) as (_ & _ & _ & W & _). exact W.
Qed.
End Accept.
