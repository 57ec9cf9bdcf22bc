(** Proofs about the integrated unicycle in doubles. *)
From Coq Require Import Reals ZArith List Bool Lia Lra.
From Flocq Require Import Core IEEE754.BinarySingleNaN.
From Verif Require Import Prelude Rounding RoundedGen RoundedGenSpec RoundedGenProofs2 RoundedGenProofs3 Controllers ControlSpec
  Doubles DoublesSpec DoublesProofs CtrlDoubles CtrlDoublesSpec CtrlDoublesProofs StepDoubles StepDoublesSpec StepDoublesProofs EllDoublesProofs
  UniDoubles UniDoublesSpec.
Import ListNotations.
Open Scope R_scope.

(** ** One velocity component *)
Lemma off_self : forall Q x, 0 <= Q -> off 0 Q x x.
Proof. intros Q x H. unfold off. rewrite Rminus_diag_eq, Rabs_R0 by reflexivity. lra. Qed.
Lemma trig_prod : forall ct f C, fin ct = true -> fin f = true -> Rabs C <= 1 -> Rabs (f2r ct - C) <= 2 * u64 -> Rabs (f2r f) <= bpow radix2 402 ->
  fin (fmul ct f) = true /\ Rabs (f2r (fmul ct f) - C * f2r f) <= 25 / 8 * (u64 * Rabs (f2r f)) + eta64.
Proof.
  intros ct f C Fc Ff HC H B. destruct (near_prod 2 0 1 (Rabs (f2r f)) (f2r ct) C (f2r f) (f2r f)) as (P1 & P2); try lra; try apply Rabs_pos.
  - unfold off. lra.
  - apply off_self, Rabs_pos.
  - destruct (fmul_ok ct f Fc Ff) as (F & E). { apply big_fin. pose proof (bpow_le radix2 404 1000 ltac:(lia)). assert (4 * bpow radix2 402 = bpow radix2 404) by (change 4 with (bpow radix2 2); rewrite <- bpow_plus; reflexivity). lra. }
    split; auto. rewrite E. replace (2 + 0 + 9 / 8) with (25 / 8) in P1 by lra. rewrite Rmult_1_l in P1. exact P1.
Qed.
(** [e] is -1 for the difference and 1 for the sum. *)
Lemma comb : forall a b f l C D, fin a = true -> fin b = true -> Rabs C <= 1 -> Rabs D <= 1 ->
  Rabs (f2r a - C * f) <= 25 / 8 * (u64 * Rabs f) + eta64 -> Rabs (f2r b - D * l) <= 25 / 8 * (u64 * Rabs l) + eta64 ->
  Rabs f <= bpow radix2 402 -> Rabs l <= bpow radix2 402 ->
  (fin (fadd a b) = true /\ Rabs (f2r (fadd a b) - (C * f + D * l)) <= 17 / 4 * (u64 * (Rabs f + Rabs l)) + 5 * eta64)
  /\ (fin (fsub a b) = true /\ Rabs (f2r (fsub a b) - (C * f - D * l)) <= 17 / 4 * (u64 * (Rabs f + Rabs l)) + 5 * eta64).
Proof.
  intros a b f l C D Fa Fb HC HD Ha Hb Bf Bl. pose proof eta64_pos as E0. pose proof (Rabs_pos f). pose proof (Rabs_pos l). destruct u64_bounds as ((U0 & U1) & _).
  assert (P1 : Rabs (C * f) <= Rabs f) by (rewrite Rabs_mult; replace (Rabs f) with (1 * Rabs f) at 2 by ring; apply Rmult_le_compat_r; lra).
  assert (P2 : Rabs (D * l) <= Rabs l) by (rewrite Rabs_mult; replace (Rabs l) with (1 * Rabs l) at 2 by ring; apply Rmult_le_compat_r; lra).
  assert (Big : 2 * (Rabs f + Rabs l) + 2 * eta64 <= bpow radix2 1000).
  { assert (4 * bpow radix2 402 = bpow radix2 404) by (change 4 with (bpow radix2 2); rewrite <- bpow_plus; reflexivity). assert (eta64 <= 1) by (unfold eta64; assert (bpow radix2 (-1074) <= bpow radix2 0) by (apply bpow_le; lia); simpl (bpow radix2 0) in *; lra).
    assert (2 * bpow radix2 404 = bpow radix2 405) by (change 2 with (bpow radix2 1); rewrite <- bpow_plus; reflexivity). pose proof (bpow_le radix2 405 1000 ltac:(lia)). assert (bpow radix2 1 <= bpow radix2 404) by (apply bpow_le; lia). change (bpow radix2 1) with 2 in *. lra. }
  split.
  - destruct (near_sum (25 / 8) (Rabs f + Rabs l) (f2r a) (C * f) (f2r b) (D * l) (2 * eta64)) as (N1 & N2); try lra.
    + pose proof (Rabs_triang (C * f) (D * l)). lra.
    + pose proof (Rabs_triang (f2r a - C * f) (f2r b - D * l)). rewrite Rmult_plus_distr_l. lra.
    + destruct (fadd_ok a b Fa Fb) as (F & E); [apply big_fin; lra|]. split; auto. rewrite E. lra.
  - destruct (near_sum (25 / 8) (Rabs f + Rabs l) (f2r a) (C * f) (- f2r b) (- (D * l)) (2 * eta64)) as (N1 & N2); try lra.
    + pose proof (Rabs_triang (C * f) (- (D * l))) as Q. rewrite Rabs_Ropp in Q. lra.
    + pose proof (Rabs_triang (f2r a - C * f) (- (f2r b - D * l))) as Q. rewrite Rabs_Ropp in Q. replace (f2r a - C * f + (- f2r b - - (D * l))) with (f2r a - C * f + - (f2r b - D * l)) by ring. rewrite Rmult_plus_distr_l. lra.
    + destruct (fsub_ok a b Fa Fb) as (F & E); [apply big_fin; unfold Rminus; lra|]. split; auto. rewrite E. unfold Rminus at 2 3. lra.
Qed.

(** ** One coordinate of a step *)
Lemma coord_step : forall x h v V m W, fin x = true -> fin h = true -> fin v = true -> 0 <= f2r h <= bpow radix2 400 -> 1 <= W <= bpow radix2 401 -> Rabs (f2r x) <= W ->
  0 <= m -> f2r h * m <= W -> Rabs V <= m -> Rabs (f2r v - V) <= 17 / 4 * (u64 * m) + 5 * eta64 ->
  fin (fadd x (fmul h v)) = true /\ Rabs (f2r (fadd x (fmul h v)) - (f2r x + f2r h * V)) <= 10 * (u64 * W).
Proof.
  intros x h v V m W Fx Fh Fv (H0 & H1) (W1 & W2) Bx M0 HM BV HV. pose proof eta64_pos as E0. destruct u64_bounds as ((U0 & U1) & EU).
  set (H := f2r h) in *. assert (UW : 0 < u64 * W) by (apply Rmult_lt_0_compat; lra).
  assert (HE : H * eta64 <= / 1024 * (u64 * W)).
  { apply Rle_trans with (bpow radix2 400 * eta64); [apply Rmult_le_compat_r; auto|]. apply Rle_trans with (/ 1024 * (u64 * 1)); [|apply Rmult_le_compat_l; [lra|]; apply Rmult_le_compat_l; lra].
    rewrite EU, Rmult_1_r. unfold eta64. change (/ 1024) with (bpow radix2 (-10)). change (/ 2) with (bpow radix2 (-1)). rewrite <- !bpow_plus. apply bpow_le. lia. }
  assert (EE : eta64 <= / 1024 * (u64 * W)). { apply eta_below. pose proof (bpow_le radix2 (-900) 0 ltac:(lia)). change (bpow radix2 0) with 1 in *. lra. }
  assert (UM : u64 * (H * m) <= u64 * W) by (apply Rmult_le_compat_l; lra). assert (UU : u64 * (u64 * W) <= / 9007199254740992 * (u64 * W)) by (apply Rmult_le_compat_r; lra).
  assert (UW' : u64 * W <= / 9007199254740992 * W) by (apply Rmult_le_compat_r; lra).
  (* h * v *)
  assert (A1 : Rabs (H * f2r v - H * V) <= 17 / 4 * (u64 * W) + 5 / 1024 * (u64 * W)).
  { replace (H * f2r v - H * V) with (H * (f2r v - V)) by ring. rewrite Rabs_mult, (Rabs_pos_eq H) by auto. apply Rle_trans with (H * (17 / 4 * (u64 * m) + 5 * eta64)); [apply Rmult_le_compat_l; auto|].
    replace (H * (17 / 4 * (u64 * m) + 5 * eta64)) with (17 / 4 * (u64 * (H * m)) + 5 * (H * eta64)) by ring. lra. }
  assert (A2 : Rabs (H * V) <= W). { rewrite Rabs_mult, (Rabs_pos_eq H) by auto. apply Rle_trans with (H * m); auto. apply Rmult_le_compat_l; auto. }
  assert (A3 : Rabs (H * f2r v) <= 5 / 4 * W). { replace (H * f2r v) with ((H * f2r v - H * V) + H * V) by ring. pose proof (Rabs_triang (H * f2r v - H * V) (H * V)). lra. }
  assert (Big : bpow radix2 401 * 16 <= bpow radix2 1000) by (change 16 with (bpow radix2 4); rewrite <- bpow_plus; apply bpow_le; lia).
  destruct (fmul_ok h v Fh Fv) as (Fm & Em); [apply big_fin; fold H; lra|]. fold H in Em.
  pose proof (b64_near _ _ A3) as N1. rewrite <- Em in N1. set (p := f2r (fmul h v)) in *. replace (u64 * (5 / 4 * W)) with (5 / 4 * (u64 * W)) in N1 by ring.
  assert (A4 : Rabs (p - H * V) <= 23 / 4 * (u64 * W)). { replace (p - H * V) with ((p - H * f2r v) + (H * f2r v - H * V)) by ring. pose proof (Rabs_triang (p - H * f2r v) (H * f2r v - H * V)). lra. }
  assert (A5 : Rabs (f2r x + p) <= 5 / 2 * W).
  { replace (f2r x + p) with (f2r x + (p - H * V) + H * V) by ring. pose proof (Rabs_triang (f2r x + (p - H * V)) (H * V)). pose proof (Rabs_triang (f2r x) (p - H * V)). lra. }
  destruct (fadd_ok x (fmul h v) Fx Fm) as (Fs & Es); [apply big_fin; fold p; lra|]. fold p in Es. split; auto. rewrite Es.
  pose proof (b64_near _ _ A5) as N2. replace (u64 * (5 / 2 * W)) with (5 / 2 * (u64 * W)) in N2 by ring.
  replace (b64 (f2r x + p) - (f2r x + H * V)) with ((b64 (f2r x + p) - (f2r x + p)) + (p - H * V)) by ring. pose proof (Rabs_triang (b64 (f2r x + p) - (f2r x + p)) (p - H * V)). lra.
Qed.

(** ** The commands *)
Section Travel.
Variables (l : list (setter f64)) (lin ang : f64).
Variables (sq cosf sinf : f64 -> f64) (at2 : f64 -> f64 -> f64).
Let M := ieee_maths sq cosf sinf at2.
Hypothesis T : List.Forall tame l.
Hypothesis Q : sat64 l = Some (lin, ang).
Hypothesis MD : moderate lin ang (turn64 l) (back64 l) (side64 l).
Hypothesis trig : close_trig cosf sinf.
Let F0 := Rmax 1 (f2r (back64 l)) * f2r lin.
Let L0 := f2r (side64 l) * f2r lin.
Let V := top_speed (f2r lin) (f2r (back64 l)) (f2r (side64 l)).
Hypothesis VB : V <= bpow radix2 400.

Lemma speeds : 0 <= f2r lin /\ 0 <= f2r (back64 l) /\ 0 <= f2r (side64 l) /\ 0 <= f2r ang /\ 0 <= F0 <= V /\ 0 <= L0 <= V /\ V * V = F0 * F0 + L0 * L0 /\ 0 <= V.
Proof.
  destruct (sat_settings l lin ang T Q) as (E1 & E2 & L1 & L2). destruct MD as (A1 & A2 & A3 & A4 & A5 & A6). destruct (factors_nonneg l T) as (K1 & K2 & K3 & _).
  rewrite key_fin in K2, K3 by auto. apply le64_inv in L1. apply le64_inv in L2. rewrite key_0, key_fin in L1, L2 by auto.
  assert (HF : 0 <= F0) by (apply Rmult_le_pos; auto; eapply Rle_trans; [|apply Rmax_l]; lra). assert (HL : 0 <= L0) by (apply Rmult_le_pos; auto).
  assert (S0 : 0 <= F0 * F0 + L0 * L0) by (pose proof (Rle_0_sqr F0); pose proof (Rle_0_sqr L0); unfold Rsqr in *; lra).
  assert (VV : V * V = F0 * F0 + L0 * L0). { unfold V, top_speed. fold F0 L0. replace (F0 ^ 2 + L0 ^ 2) with (F0 * F0 + L0 * L0) by ring. apply sqrt_sqrt. exact S0. }
  assert (V0 : 0 <= V) by apply sqrt_pos.
  repeat split; auto; apply Rsqr_incr_0_var; auto; unfold Rsqr; pose proof (Rle_0_sqr F0); pose proof (Rle_0_sqr L0); unfold Rsqr in *; lra.
Qed.
Lemma fin_between : forall x, number x -> forall B, Rabs (key x) <= B -> B < bpow radix2 1024 -> fin x = true.
Proof.
  intros x N B H HB. destruct (number_cases _ N) as [F|[F|F]]; auto; rewrite F in H; exfalso.
  - change (key finf) with (bpow radix2 1024) in H. rewrite Rabs_pos_eq in H by apply bpow_ge_0. lra.
  - change (key (B754_infinity true)) with (- bpow radix2 1024) in H. rewrite Rabs_Ropp, Rabs_pos_eq in H by apply bpow_ge_0. lra.
Qed.
Lemma clamp_b64 : forall x, 0 <= x <= bpow radix2 401 -> 0 <= clamp (b64 x) <= x + u64 * x + eta64.
Proof.
  intros x (H0 & H1). assert (P : 0 <= b64 x) by (apply (rnd_nonneg _ b64_rounding); auto). pose proof (b64_near x x) as N. rewrite Rabs_pos_eq in N by auto. specialize (N (Rle_refl _)). apply Rabs_le_inv in N.
  unfold clamp. pose proof inf_pos. split.
  - eapply Rle_trans; [|apply Rmax_r]. apply Rmin_glb; lra.
  - apply Rmax_lub; [lra|]. eapply Rle_trans; [apply Rmin_r|]. lra.
Qed.
Lemma commands : forall raw, numbers raw -> let o := d_control ieee M (settings ieee l) raw in
  fin (d_fwd o) = true /\ fin (d_ang o) = true /\ fin (d_lat o) = true
  /\ Rabs (f2r (d_fwd o)) <= F0 + u64 * F0 + eta64 /\ Rabs (f2r (d_lat o)) <= L0 + u64 * L0 + eta64 /\ Rabs (f2r (d_ang o)) <= f2r ang.
Proof.
  intros raw (N1 & N2 & N3) o. destruct speeds as (P1 & P2 & P3 & P4 & (P5 & P5') & (P6 & P6') & _ & P8). assert (MD' := MD). destruct MD' as (A1 & A2 & A3 & A4 & A5 & A6).
  destruct (angular_ok l lin ang raw sq cosf sinf at2 T Q N2) as (B1 & B2 & _). destruct (lateral_ok l lin ang raw sq cosf sinf at2 T Q MD N3) as (C1 & C2 & C3 & C4 & _).
  destruct (forward_ok l lin ang raw sq cosf sinf at2 T Q MD N1 N2) as (D1 & D2 & D3 & D4 & D5 & D6 & _). fold M in B1, B2, C3, C4, D1, D2, D3, D4, D5, D6. fold o in B1, B2, C3, C4, D1, D2, D3, D4, D5, D6.
  assert (Pow : bpow radix2 400 + 1 <= bpow radix2 401). { replace (bpow radix2 401) with (2 * bpow radix2 400) by (change 2 with (bpow radix2 1); rewrite <- bpow_plus; reflexivity). pose proof (bpow_le radix2 0 400 ltac:(lia)). change (bpow radix2 0) with 1 in *. lra. }
  pose proof (bpow_lt radix2 402 1024 ltac:(lia)) as Big. pose proof eta64_pos as E0. destruct u64_bounds as ((U0 & U1) & _).
  assert (P401 : 2 * bpow radix2 401 = bpow radix2 402) by (change 2 with (bpow radix2 1); rewrite <- bpow_plus; reflexivity).
  assert (E1 : eta64 <= / 4). { unfold eta64. pose proof (bpow_le radix2 (-1074) (-1) ltac:(lia)) as X. change (bpow radix2 (-1)) with (/ 2) in X. lra. }
  assert (Small : forall x, 0 <= x <= V -> x + u64 * x + eta64 < bpow radix2 1024). { intros x (X0 & X1). assert (u64 * x <= / 9007199254740992 * x) by (apply Rmult_le_compat_r; lra). lra. }
  (* lateral *)
  destruct (key_mul (side64 l) lin A4 A1) as (_ & KL). fold L0 in KL. destruct (clamp_b64 L0 ltac:(lra)) as (KL0 & KL1). rewrite KL in *.
  assert (HL : Rabs (key (d_lat o)) <= L0 + u64 * L0 + eta64) by (apply Rabs_le; lra).
  assert (FL : fin (d_lat o) = true) by (apply (fin_between _ C3 _ HL), Small; lra).
  (* angular *)
  rewrite (key_fin ang) in B2 by auto. assert (HA : Rabs (key (d_ang o)) <= f2r ang) by (apply Rabs_le; lra).
  assert (FA : fin (d_ang o) = true). { apply (fin_between _ B1 _ HA). pose proof (bpow_lt radix2 511 1024 ltac:(lia)). lra. }
  (* forward *)
  set (v := d_speed ieee M (settings ieee l) (d_ang o)) in *. destruct D2 as (D2 & D2'). assert (LF : f2r lin <= F0).
  { unfold F0. replace (f2r lin) with (1 * f2r lin) at 1 by ring. apply Rmult_le_compat_r; auto. apply Rmax_l. }
  assert (BF : f2r (back64 l) * f2r v <= F0). { unfold F0. apply Rmult_le_compat; auto. apply Rmax_r. }
  assert (B0 : 0 <= f2r (back64 l) * f2r v) by (apply Rmult_le_pos; auto). destruct (clamp_b64 (f2r (back64 l) * f2r v) ltac:(lra)) as (KF0 & KF1). rewrite D4 in D6.
  assert (UB : u64 * (f2r (back64 l) * f2r v) <= u64 * F0) by (apply Rmult_le_compat_l; lra). assert (UF : 0 <= u64 * F0) by (apply Rmult_le_pos; lra).
  assert (HF : Rabs (key (d_fwd o)) <= F0 + u64 * F0 + eta64) by (apply Rabs_le; lra).
  assert (FF : fin (d_fwd o) = true) by (apply (fin_between _ D5 _ HF), Small; lra).
  rewrite (key_fin (d_fwd o)) in HF by auto. rewrite (key_fin (d_lat o)) in HL by auto. rewrite (key_fin (d_ang o)) in HA by auto. auto 10.
Qed.

(** ** One step *)
Lemma one_step : forall raw u h W, numbers raw -> pose_fin u -> fin h = true -> 0 <= f2r h <= bpow radix2 400 -> 1 <= W <= bpow radix2 400 ->
  Rabs (f2r (d_x u)) <= W -> Rabs (f2r (d_y u)) <= W -> Rabs (f2r (d_th u)) <= W -> f2r h * V <= W / 4 -> f2r h * f2r ang <= W ->
  let u' := u_euler ieee M u (d_control ieee M (settings ieee l) raw) h in
  pose_fin u' /\ moved u u' <= V * f2r h + 22 * (u64 * W) /\ Rabs (f2r (d_th u') - f2r (d_th u)) <= f2r ang * f2r h + 4 * (u64 * W).
Proof.
  intros raw u h W N (Fx & Fy & Ft) Fh Hh HW Bx By Bt HV HA u'. destruct speeds as (P1 & P2 & P3 & P4 & (P5 & P5') & (P6 & P6') & VV & P8). destruct (commands raw N) as (F1 & F2 & F3 & B1 & B2 & B3).
  subst u'. set (o := d_control ieee M (settings ieee l) raw) in *. pose proof eta64_pos as E0. destruct u64_bounds as ((U0 & U1) & EU).
  assert (E1 : eta64 <= / 4). { unfold eta64. pose proof (bpow_le radix2 (-1074) (-1) ltac:(lia)) as X. change (bpow radix2 (-1)) with (/ 2) in X. lra. }
  assert (UW : 0 < u64 * W) by (apply Rmult_lt_0_compat; lra).
  assert (HE : f2r h * eta64 <= / 1024 * (u64 * W)).
  { apply Rle_trans with (bpow radix2 400 * eta64); [apply Rmult_le_compat_r; lra|]. apply Rle_trans with (/ 1024 * (u64 * 1)); [|apply Rmult_le_compat_l; [lra|]; apply Rmult_le_compat_l; lra].
    rewrite EU, Rmult_1_r. unfold eta64. change (/ 1024) with (bpow radix2 (-10)). change (/ 2) with (bpow radix2 (-1)). rewrite <- !bpow_plus. apply bpow_le. lia. }
  assert (UF : u64 * F0 <= / 9007199254740992 * V) by (apply Rmult_le_compat; lra). assert (UL : u64 * L0 <= / 9007199254740992 * V) by (apply Rmult_le_compat; lra).
  assert (P401 : 2 * bpow radix2 400 = bpow radix2 401) by (change 2 with (bpow radix2 1); rewrite <- bpow_plus; reflexivity).
  assert (P402 : 2 * bpow radix2 401 = bpow radix2 402) by (change 2 with (bpow radix2 1); rewrite <- bpow_plus; reflexivity).
  pose proof (bpow_le radix2 0 400 ltac:(lia)) as P0. change (bpow radix2 0) with 1 in P0.
  set (f := f2r (d_fwd o)) in *. set (r := f2r (d_lat o)) in *. set (m := Rabs f + Rabs r). pose proof (Rabs_pos f). pose proof (Rabs_pos r).
  destruct (trig (d_th u)) as (Tr & _). destruct (Tr Ft) as (Fc & Fs & Tc & Ts). assert (E52 : bpow radix2 (-52) = 2 * u64) by (rewrite EU; change (-52)%Z with (1 + -53)%Z; rewrite bpow_plus; reflexivity). rewrite E52 in Tc, Ts.
  set (C := cos (f2r (d_th u))) in *. set (D := sin (f2r (d_th u))) in *. pose proof (cos_abs (f2r (d_th u))) as HC. fold C in HC. pose proof (sin_abs (f2r (d_th u))) as HD. fold D in HD.
  assert (Bf : Rabs f <= bpow radix2 402) by lra. assert (Br : Rabs r <= bpow radix2 402) by lra.
  destruct (trig_prod (cosf (d_th u)) (d_fwd o) C Fc F1 HC Tc Bf) as (G1 & G1'). destruct (trig_prod (sinf (d_th u)) (d_lat o) D Fs F3 HD Ts Br) as (G2 & G2').
  destruct (trig_prod (sinf (d_th u)) (d_fwd o) D Fs F1 HD Ts Bf) as (G3 & G3'). destruct (trig_prod (cosf (d_th u)) (d_lat o) C Fc F3 HC Tc Br) as (G4 & G4'). fold f in G1', G3'. fold r in G2', G4'.
  destruct (comb _ _ f r C D G1 G2 HC HD G1' G2' Bf Br) as (_ & X1 & X2). destruct (comb _ _ f r D C G3 G4 HD HC G3' G4' Bf Br) as ((Y1 & Y2) & _). fold m in X2, Y2.
  assert (HM : f2r h * m <= W).
  { apply Rle_trans with (f2r h * (5 / 2 * V + 2 * eta64)); [apply Rmult_le_compat_l; unfold m; lra|]. replace (f2r h * (5 / 2 * V + 2 * eta64)) with (5 / 2 * (f2r h * V) + 2 * (f2r h * eta64)) by ring.
    assert (u64 * W <= / 9007199254740992 * W) by (apply Rmult_le_compat_r; lra). lra. }
  assert (Two : forall a b c d, Rabs a <= 1 -> Rabs b <= 1 -> Rabs (a * c + b * d) <= Rabs c + Rabs d).
  { intros a b c d Ha Hb. eapply Rle_trans; [apply Rabs_triang|]. rewrite !Rabs_mult. pose proof (Rabs_pos c). pose proof (Rabs_pos d). apply Rplus_le_compat.
    - replace (Rabs c) with (1 * Rabs c) at 2 by ring. apply Rmult_le_compat_r; auto.
    - replace (Rabs d) with (1 * Rabs d) at 2 by ring. apply Rmult_le_compat_r; auto. }
  assert (MX : Rabs (C * f - D * r) <= m). { replace (C * f - D * r) with (C * f + D * - r) by ring. unfold m. rewrite <- (Rabs_Ropp r). apply Two; auto. }
  assert (MY : Rabs (D * f + C * r) <= m) by (apply Two; auto). assert (M0 : 0 <= m) by (unfold m; lra).
  destruct (coord_step (d_x u) h _ (C * f - D * r) m W Fx Fh X1 Hh ltac:(lra) Bx M0 HM MX X2) as (Z1 & Z2).
  destruct (coord_step (d_y u) h _ (D * f + C * r) m W Fy Fh Y1 Hh ltac:(lra) By M0 HM MY Y2) as (Z3 & Z4).
  assert (WA : Rabs (f2r (d_ang o)) <= f2r ang) by exact B3.
  assert (HA' : f2r h * f2r ang <= W) by exact HA. cbn [u_euler u_dot d_x d_y d_th a_add a_sub a_mul ieee x_cos x_sin M ieee_maths] in *. unfold pose_fin, moved. cbn [d_x d_y d_th].
  (* heading *)
  assert (Ha : Rabs (f2r h * f2r (d_ang o)) <= f2r ang * f2r h). { rewrite Rabs_mult, (Rabs_pos_eq (f2r h)), Rmult_comm by lra. apply Rmult_le_compat_r; lra. }
  assert (P400 : bpow radix2 400 <= bpow radix2 1000) by (apply bpow_le; lia). assert (P402' : bpow radix2 402 <= bpow radix2 1000) by (apply bpow_le; lia).
  destruct (fmul_ok h (d_ang o) Fh F2) as (Q1 & Q2); [apply big_fin; lra|]. assert (Ha2 : Rabs (f2r h * f2r (d_ang o)) <= W) by lra.
  pose proof (b64_near _ _ Ha2) as Q3. rewrite <- Q2 in Q3. set (p := f2r (fmul h (d_ang o))) in *. assert (EE : eta64 <= / 1024 * (u64 * W)). { apply eta_below. pose proof (bpow_le radix2 (-900) 0 ltac:(lia)). change (bpow radix2 0) with 1 in *. lra. }
  assert (UW' : u64 * W <= / 9007199254740992 * W) by (apply Rmult_le_compat_r; lra).
  assert (Q4 : Rabs (f2r (d_th u) + p) <= 9 / 4 * W). { replace (f2r (d_th u) + p) with (f2r (d_th u) + (p - f2r h * f2r (d_ang o)) + f2r h * f2r (d_ang o)) by ring. pose proof (Rabs_triang (f2r (d_th u) + (p - f2r h * f2r (d_ang o))) (f2r h * f2r (d_ang o))). pose proof (Rabs_triang (f2r (d_th u)) (p - f2r h * f2r (d_ang o))). lra. }
  destruct (fadd_ok (d_th u) (fmul h (d_ang o)) Ft Q1) as (Q5 & Q6); [apply big_fin; fold p; lra|]. fold p in Q6. pose proof (b64_near _ _ Q4) as Q7. rewrite <- Q6 in Q7. set (th' := f2r (fadd (d_th u) (fmul h (d_ang o)))) in *.
  split; [auto|]. split.
  2: { replace (th' - f2r (d_th u)) with ((th' - (f2r (d_th u) + p)) + (p - f2r h * f2r (d_ang o)) + f2r h * f2r (d_ang o)) by ring.
       pose proof (Rabs_triang ((th' - (f2r (d_th u) + p)) + (p - f2r h * f2r (d_ang o))) (f2r h * f2r (d_ang o))). pose proof (Rabs_triang (th' - (f2r (d_th u) + p)) (p - f2r h * f2r (d_ang o))).
       replace (u64 * (9 / 4 * W)) with (9 / 4 * (u64 * W)) in Q7 by ring. lra. }
  (* position *)
  set (x' := f2r (fadd (d_x u) _)) in *. set (y' := f2r (fadd (d_y u) _)) in *.
  eapply Rle_trans; [apply (norm_triangle _ _ (f2r h * (C * f - D * r)) (f2r h * (D * f + C * r)))|].
  assert (R1 : Rabs (f2r h * (C * f - D * r) - (x' - f2r (d_x u))) <= 10 * (u64 * W)). { rewrite <- Rabs_Ropp. replace (- (f2r h * (C * f - D * r) - (x' - f2r (d_x u)))) with (x' - (f2r (d_x u) + f2r h * (C * f - D * r))) by ring. exact Z2. }
  assert (R2 : Rabs (f2r h * (D * f + C * r) - (y' - f2r (d_y u))) <= 10 * (u64 * W)). { rewrite <- Rabs_Ropp. replace (- (f2r h * (D * f + C * r) - (y' - f2r (d_y u)))) with (y' - (f2r (d_y u) + f2r h * (D * f + C * r))) by ring. exact Z4. }
  assert (R3 : sqrt (f2r h * (C * f - D * r) * (f2r h * (C * f - D * r)) + f2r h * (D * f + C * r) * (f2r h * (D * f + C * r))) = f2r h * sqrt (f * f + r * r)).
  { assert (I : D * D + C * C = 1) by exact (sin2_cos2 (f2r (d_th u))). rewrite <- (sqrt_square (f2r h)) at 5 by lra. rewrite <- sqrt_mult_alt by (apply Rle_0_sqr). f_equal.
    transitivity (f2r h * f2r h * ((D * D + C * C) * (f * f + r * r))); [ring|rewrite I; ring]. }
  rewrite R3. assert (R4 : sqrt (f * f + r * r) <= V + 2 * (u64 * V) + 2 * eta64).
  { apply Rle_trans with (sqrt ((F0 + u64 * F0 + eta64) * (F0 + u64 * F0 + eta64) + (L0 + u64 * L0 + eta64) * (L0 + u64 * L0 + eta64))).
    - apply sqrt_le_1_alt. rewrite <- (Rabs_pos_eq (f * f)), <- (Rabs_pos_eq (r * r)) by apply Rle_0_sqr. rewrite !Rabs_mult. apply Rplus_le_compat; apply Rmult_le_compat; auto.
    - eapply Rle_trans; [apply (norm_triangle _ _ F0 L0)|]. replace (sqrt (F0 * F0 + L0 * L0)) with V by (rewrite <- VV; symmetry; apply sqrt_square; auto).
      assert (0 <= u64 * F0) by (apply Rmult_le_pos; lra). assert (0 <= u64 * L0) by (apply Rmult_le_pos; lra). assert (u64 * F0 <= u64 * V) by (apply Rmult_le_compat_l; lra). assert (u64 * L0 <= u64 * V) by (apply Rmult_le_compat_l; lra).
      rewrite (Rabs_left1 (F0 - _)), (Rabs_left1 (L0 - _)) by lra. lra. }
  assert (R5 : f2r h * sqrt (f * f + r * r) <= f2r h * (V + 2 * (u64 * V) + 2 * eta64)) by (apply Rmult_le_compat_l; lra).
  replace (f2r h * (V + 2 * (u64 * V) + 2 * eta64)) with (V * f2r h + 2 * (u64 * (f2r h * V)) + 2 * (f2r h * eta64)) in R5 by ring.
  assert (u64 * (f2r h * V) <= u64 * (W / 4)) by (apply Rmult_le_compat_l; lra). replace (u64 * (W / 4)) with (/ 4 * (u64 * W)) in * by field. lra.
Qed.

(** ** Many steps *)
Lemma lasting_cons : forall t h r, lasting ((t, h) :: r) = f2r h + lasting r.
Proof. reflexivity. Qed.
Lemma lasting_pos : forall r, List.Forall step_ok r -> 0 <= lasting r.
Proof. intros r H. induction H as [|(t & h) r (A & B) _ IH]; [unfold lasting; simpl; lra|]. rewrite lasting_cons. simpl in B. lra. Qed.
Lemma moved_triangle : forall a b c, moved a c <= moved a b + moved b c.
Proof.
  intros a b c. unfold moved. pose proof (triangle (f2r (d_x a)) (f2r (d_y a)) (f2r (d_x c)) (f2r (d_y c)) (f2r (d_x b)) (f2r (d_y b))) as H. unfold dist_euc, Rsqr in H.
  assert (E : forall p q r s, (p - q) * (p - q) + (r - s) * (r - s) = (q - p) * (q - p) + (s - r) * (s - r)) by (intros; ring).
  rewrite (E (f2r (d_x c))), (E (f2r (d_x b))), (E (f2r (d_x c)) (f2r (d_x b))). exact H.
Qed.
Lemma moved_parts : forall a b, Rabs (f2r (d_x b) - f2r (d_x a)) <= moved a b /\ Rabs (f2r (d_y b) - f2r (d_y a)) <= moved a b.
Proof.
  intros a b. unfold moved. set (x := f2r (d_x b) - f2r (d_x a)). set (y := f2r (d_y b) - f2r (d_y a)). pose proof (Rle_0_sqr x). pose proof (Rle_0_sqr y). unfold Rsqr in *.
  split; rewrite <- sqrt_Rsqr_abs; apply sqrt_le_1_alt; unfold Rsqr; lra.
Qed.
Lemma moved_same : forall a, moved a a = 0.
Proof. intros a. unfold moved. rewrite !Rminus_diag_eq, Rmult_0_l, Rplus_0_l by reflexivity. apply sqrt_0. Qed.

Variable K : Type.
Variable ctl : K -> f64 -> dpose f64 -> option (K * dcmd f64).
Lemma roll_bounds : forall W, answers W K ctl -> 1 <= W <= bpow radix2 400 -> forall steps k u k' u', List.Forall step_ok steps -> pose_fin u -> lasting steps <= bpow radix2 400 -> V * lasting steps <= W / 4 ->
  let n := INR (length steps) in
  Rabs (f2r (d_x u)) + V * lasting steps + n * (22 * (u64 * W)) <= W -> Rabs (f2r (d_y u)) + V * lasting steps + n * (22 * (u64 * W)) <= W ->
  Rabs (f2r (d_th u)) + f2r ang * lasting steps + n * (4 * (u64 * W)) <= W ->
  u_roll ieee M ctl (settings ieee l) k u steps = Some (k', u') ->
  pose_fin u' /\ moved u u' <= V * lasting steps + n * (22 * (u64 * W)) /\ Rabs (f2r (d_th u') - f2r (d_th u)) <= f2r ang * lasting steps + n * (4 * (u64 * W)).
Proof.
  intros W ctl_ok HW. destruct speeds as (_ & _ & _ & P4 & _ & _ & _ & P8). destruct u64_bounds as ((U0 & U1) & EU). assert (UW : 0 < u64 * W) by (apply Rmult_lt_0_compat; lra).
  induction steps as [|(t & h) steps IH]; intros k u k' u' OK Fu TB VT n BX BY BT E.
  { cbn [u_roll] in E. injection E as <- <-. subst n. unfold lasting. simpl. rewrite moved_same, Rminus_diag_eq, Rabs_R0 by reflexivity. repeat split; try apply Fu; lra. }
  cbn [u_roll] in E. destruct (ctl k t u) as [(k1 & raw)|] eqn:Ec; [|discriminate]. inversion OK as [|? ? (Fh & Hh) OK']; subst. simpl in Fh, Hh. rewrite lasting_cons in *. pose proof (lasting_pos _ OK') as T0.
  assert (N : n = INR (length steps) + 1) by (unfold n; simpl length; apply S_INR). set (n' := INR (length steps)) in *. assert (N0 : 0 <= n') by apply pos_INR. rewrite N in *. clear n N.
  assert (VH : 0 <= V * f2r h) by (apply Rmult_le_pos; auto). assert (VR : 0 <= V * lasting steps) by (apply Rmult_le_pos; auto). assert (AH : 0 <= f2r ang * f2r h) by (apply Rmult_le_pos; auto). assert (AR : 0 <= f2r ang * lasting steps) by (apply Rmult_le_pos; auto).
  assert (NU : 0 <= n' * (u64 * W)) by (apply Rmult_le_pos; lra). rewrite !Rmult_plus_distr_l in BX, BY, BT, VT. rewrite !Rmult_plus_distr_r in BX, BY, BT.
  replace (n' * (22 * (u64 * W))) with (22 * (n' * (u64 * W))) in * by ring. replace (n' * (4 * (u64 * W))) with (4 * (n' * (u64 * W))) in * by ring.
  pose proof (Rabs_pos (f2r (d_th u))).
  assert (IN : within W u) by (unfold within; lra).
  destruct (one_step raw u h W (ctl_ok _ _ _ _ _ Fu IN Ec) Fu Fh ltac:(lra) HW ltac:(lra) ltac:(lra) ltac:(lra) ltac:(lra) ltac:(lra)) as (S1 & S2 & S3).
  set (u1 := u_euler ieee M u (d_control ieee M (settings ieee l) raw) h) in *. destruct (moved_parts u u1) as (M1 & M2).
  assert (X1 : Rabs (f2r (d_x u1)) <= Rabs (f2r (d_x u)) + moved u u1). { replace (f2r (d_x u1)) with (f2r (d_x u) + (f2r (d_x u1) - f2r (d_x u))) by ring. pose proof (Rabs_triang (f2r (d_x u)) (f2r (d_x u1) - f2r (d_x u))). lra. }
  assert (Y1 : Rabs (f2r (d_y u1)) <= Rabs (f2r (d_y u)) + moved u u1). { replace (f2r (d_y u1)) with (f2r (d_y u) + (f2r (d_y u1) - f2r (d_y u))) by ring. pose proof (Rabs_triang (f2r (d_y u)) (f2r (d_y u1) - f2r (d_y u))). lra. }
  assert (T1 : Rabs (f2r (d_th u1)) <= Rabs (f2r (d_th u)) + (f2r ang * f2r h + 4 * (u64 * W))). { replace (f2r (d_th u1)) with (f2r (d_th u) + (f2r (d_th u1) - f2r (d_th u))) by ring. pose proof (Rabs_triang (f2r (d_th u)) (f2r (d_th u1) - f2r (d_th u))). lra. }
  assert (IH' := IH k1 u1 k' u' OK' S1 ltac:(lra) ltac:(lra)). cbn zeta in IH'. fold n' in IH'. replace (n' * (22 * (u64 * W))) with (22 * (n' * (u64 * W))) in IH' by ring. replace (n' * (4 * (u64 * W))) with (4 * (n' * (u64 * W))) in IH' by ring.
  destruct (IH' ltac:(lra) ltac:(lra) ltac:(lra) E) as (R1 & R2 & R3). split; [exact R1|]. rewrite !Rmult_plus_distr_l, !Rmult_plus_distr_r.
  replace (n' * (22 * (u64 * W))) with (22 * (n' * (u64 * W))) by ring. replace (n' * (4 * (u64 * W))) with (4 * (n' * (u64 * W))) by ring. split.
  - pose proof (moved_triangle u u1 u'). lra.
  - replace (f2r (d_th u') - f2r (d_th u)) with ((f2r (d_th u') - f2r (d_th u1)) + (f2r (d_th u1) - f2r (d_th u))) by ring. pose proof (Rabs_triang (f2r (d_th u') - f2r (d_th u1)) (f2r (d_th u1) - f2r (d_th u))). lra.
Qed.

Lemma travel : forall W steps k u k' u', answers W K ctl -> List.Forall step_ok steps -> pose_fin u -> world W V (f2r ang) (lasting steps) (length steps) u ->
  u_roll ieee M ctl (settings ieee l) k u steps = Some (k', u') ->
  pose_fin u' /\ moved u u' <= V * lasting steps + INR (length steps) * (W * bpow radix2 (-48))
  /\ Rabs (f2r (d_th u') - f2r (d_th u)) <= f2r ang * lasting steps + INR (length steps) * (W * bpow radix2 (-51)).
Proof.
  intros W steps k u k' u' AN OK Fu [HW (X & Y & Z) (TB & NB) _ (R1 & R2)] E. destruct u64_bounds as ((U0 & U1) & EU). set (n := INR (length steps)) in *. assert (N0 : 0 <= n) by apply pos_INR.
  assert (NU : 22 * (n * (u64 * W)) <= W / 8).
  { apply Rle_trans with (22 * (bpow radix2 40 * (u64 * W))); [apply Rmult_le_compat_l; [lra|]; apply Rmult_le_compat_r; auto; apply Rmult_le_pos; lra|]. rewrite EU.
    replace (bpow radix2 40 * (bpow radix2 (-53) * W)) with (bpow radix2 40 * bpow radix2 (-53) * W) by ring. rewrite <- bpow_plus. change (bpow radix2 (40 + -53)) with (/ 8192). lra. }
  assert (NP : 0 <= n * (u64 * W)) by (apply Rmult_le_pos; auto; apply Rmult_le_pos; lra).
  assert (A := roll_bounds W AN HW steps k u k' u' OK Fu TB R1). cbn zeta in A. fold n in A. replace (n * (22 * (u64 * W))) with (22 * (n * (u64 * W))) in A by ring. replace (n * (4 * (u64 * W))) with (4 * (n * (u64 * W))) in A by ring.
  destruct (A ltac:(lra) ltac:(lra) ltac:(lra) E) as (B1 & B2 & B3). split; [exact B1|].
  replace (W * bpow radix2 (-48)) with (32 * (u64 * W)) by (rewrite EU; change (-48)%Z with (5 + -53)%Z; rewrite bpow_plus; change (bpow radix2 5) with 32; ring).
  replace (W * bpow radix2 (-51)) with (4 * (u64 * W)) by (rewrite EU; change (-51)%Z with (2 + -53)%Z; rewrite bpow_plus; change (bpow radix2 2) with 4; ring).
  split; [|lra]. lra.
Qed.
End Travel.
