(** Rounding on the way back from the ellipse space. *)
From Coq Require Import Reals ZArith List Bool Lia Lra Psatz.
From Flocq Require Import Core IEEE754.BinarySingleNaN.
From Verif Require Import Prelude Ellipse Rounding RoundedGen RoundedGenProofs2 RoundedGenProofs3 RoundedGenProofs4 EvalTac Doubles DoublesSpec DoublesProofs CtrlDoubles CtrlDoublesProofs NavDoublesSpec StepDoubles StepDoublesSpec StepDoublesProofs
  EllDoubles EllDoublesSpec EllDoublesProofs EllDoublesProofs2 StepDoublesProofs5 ProjDoubles ProjDoublesSpec ProjDoublesProofs ProjDoublesProofs2.
Import ListNotations.
Open Scope R_scope.

Lemma term_near : forall p K a w m, fin p = true -> fin w = true -> axis64 a -> f2r a <= m -> Rabs K <= 1 -> off (13 / 4) (f2r a) (f2r p) (K * f2r a) -> Rabs (f2r w) <= 3 / 2 ->
  fin (fmul p w) = true /\ Rabs (f2r (fmul p w) - K * f2r a * f2r w) <= 7 * (u64 * m) /\ Rabs (K * f2r a * f2r w) <= 3 / 2 * m.
Proof.
  intros p K a w m Fp Fw Ha Hm HK O Hw. destruct (axis_range a Ha) as (A1 & A2). pose proof (bpow_gt_0 radix2 (-34)) as P34. destruct u64_bounds as ((U0 & _) & _). set (x := f2r a) in *. pose proof (size1 K x HK ltac:(lra)) as KX.
  assert (L : bpow radix2 (-900) <= x * (3 / 2)) by (pose proof (bpow_le radix2 (-900) (-34) ltac:(lia)); lra).
  destruct (near_prod' (13 / 4) 0 x (3 / 2) (f2r p) (K * x) (f2r w) (f2r w)) as (P1 & P2); auto; try lra; [apply off_self|].
  destruct (fmul_ok p w Fp Fw) as (F & V). { apply big_fin. apply Rle_trans with (8 * bpow radix2 100); [lra|]. change 8 with (bpow radix2 3). rewrite <- bpow_plus. apply bpow_le. lia. }
  assert (UM : u64 * x <= u64 * m) by (apply Rmult_le_compat_l; lra). assert (U1 : 0 <= u64 * x) by (apply Rmult_le_pos; lra).
  split; [exact F|]. split; [rewrite V; unfold off in P1; lra|]. rewrite Rabs_mult. apply Rle_trans with (x * (3 / 2)); [apply Rmult_le_compat; auto; apply Rabs_pos|lra].
Qed.
Lemma row_near : forall p q K1 K2 a b w d m, fin p = true -> fin q = true -> fin (fst w) = true -> fin (snd w) = true -> axis64 a -> axis64 b -> f2r a <= m -> f2r b <= m -> m <= bpow radix2 100 -> Rabs K1 <= 1 -> Rabs K2 <= 1 ->
  off (13 / 4) (f2r a) (f2r p) (K1 * f2r a) -> off (13 / 4) (f2r b) (f2r q) (K2 * f2r b) -> Rabs (f2r (fst w)) <= 3 / 2 -> Rabs (f2r (snd w)) <= 3 / 2 -> coord64 d ->
  let r := fadd (fadd (fmul p (fst w)) (fmul q (snd w))) d in
  fin r = true /\ Rabs (f2r r - (K1 * f2r a * f2r (fst w) + K2 * f2r b * f2r (snd w) + f2r d)) <= 23 * (u64 * (m + Rabs (f2r d))).
Proof.
  intros p q K1 K2 a b w d m Fp Fq Fx Fy Ha Hb Am Bm Mb H1 H2 O1 O2 X Y (Fd & Bd) r. destruct (axis_range a Ha) as (A1 & _). pose proof (bpow_gt_0 radix2 (-34)) as P34. destruct u64_bounds as ((U0 & U1) & _).
  destruct (term_near p K1 a (fst w) m Fp Fx Ha Am H1 O1 X) as (F1 & N1 & S1). destruct (term_near q K2 b (snd w) m Fq Fy Hb Bm H2 O2 Y) as (F2 & N2 & S2).
  set (T1 := K1 * f2r a * f2r (fst w)) in *. set (T2 := K2 * f2r b * f2r (snd w)) in *. set (x := f2r (fmul p (fst w))) in *. set (y := f2r (fmul q (snd w))) in *. assert (Um : 0 <= u64 * m) by (apply Rmult_le_pos; lra).
  assert (L34 : forall v, m <= v -> eta64 <= / 1024 * (u64 * v)) by (intros v Hv; apply eta_below; pose proof (bpow_le radix2 (-900) (-34) ltac:(lia)); lra).
  destruct (near_sum 5 (3 * m) x T1 y T2 0) as (Q1 & Q2); try lra.
  { eapply Rle_trans; [apply Rabs_triang|]. lra. } { eapply Rle_trans; [apply Rabs_triang|]. lra. }
  assert (X100 : 8 * bpow radix2 200 <= bpow radix2 1000) by (change 8 with (bpow radix2 3); rewrite <- bpow_plus; apply bpow_le; lia). pose proof (bpow_le radix2 100 200 ltac:(lia)) as B12.
  destruct (fadd_ok _ _ F1 F2) as (Fs & Vs); [fold x y; apply big_fin; lra|]. fold x y in Vs. rewrite <- Vs in Q1. set (s := f2r (fadd (fmul p (fst w)) (fmul q (snd w)))) in *.
  pose proof (L34 m (Rle_refl m)) as Lm. assert (Sn : Rabs (s - (T1 + T2)) <= 19 * (u64 * m)) by lra.
  pose proof (Rabs_pos (f2r d)) as D0. set (W := 3 * m + Rabs (f2r d)). assert (UW : u64 * W = 3 * (u64 * m) + u64 * Rabs (f2r d)) by (unfold W; ring). assert (UD : 0 <= u64 * Rabs (f2r d)) by (apply Rmult_le_pos; lra).
  assert (T12 : Rabs (T1 + T2) <= 3 * m) by (eapply Rle_trans; [apply Rabs_triang|]; lra).
  destruct (near_sum (19 / 3) W s (T1 + T2) (f2r d) (f2r d) 0) as (Q3 & Q4); try (unfold W; lra).
  { eapply Rle_trans; [apply Rabs_triang|]. unfold W. lra. } { rewrite Rminus_diag_eq with (r1 := f2r d), Rplus_0_r by auto. lra. }
  destruct (fadd_ok _ _ Fs Fd) as (Fr & Vr); [fold s; apply big_fin; unfold W in Q4; lra|]. fold s in Vr. fold r in Fr, Vr. rewrite <- Vr in Q3. split; [exact Fr|].
  pose proof (L34 W ltac:(unfold W; lra)) as LW. assert (E : 23 * (u64 * (m + Rabs (f2r d))) = 23 * (u64 * m) + 23 * (u64 * Rabs (f2r d))) by ring. rewrite E. lra.
Qed.
Lemma unit_norm : forall t w, on_border t w -> t <= 1 -> Rabs (sqrt (f2r (fst w) * f2r (fst w) + f2r (snd w) * f2r (snd w)) - 1) <= t /\ Rabs (f2r (fst w)) <= 3 / 2 /\ Rabs (f2r (snd w)) <= 3 / 2.
Proof.
  intros t w (_ & _ & H) T. set (x := f2r (fst w)) in *. set (y := f2r (snd w)) in *. pose proof (Rle_0_sqr x) as X. pose proof (Rle_0_sqr y) as Y. unfold Rsqr in X, Y. set (n := sqrt (x * x + y * y)). assert (n0 : 0 <= n) by apply sqrt_pos. assert (nn : n * n = x * x + y * y) by (apply sqrt_def; lra).
  split; [|apply Rabs_le_inv in H; split; rewrite <- (Rabs_pos_eq (3 / 2)) by lra; apply Rsqr_le_abs_0; unfold Rsqr; lra].
  rewrite <- nn in H. replace (n * n - 1) with ((n - 1) * (n + 1)) in H by ring. rewrite Rabs_mult, (Rabs_pos_eq (n + 1)) in H by lra. apply Rle_trans with (Rabs (n - 1) * (n + 1)); [|exact H]. rewrite <- (Rmult_1_r (Rabs (n - 1))) at 1. apply Rmult_le_compat_l; [apply Rabs_pos|lra].
Qed.

Section Back.
Variables (sq cosf sinf : f64 -> f64) (at2 : f64 -> f64 -> f64).
Let M := ieee_maths sq cosf sinf at2.
Hypothesis trig : close_trig cosf sinf.
Variables a b th cx cy : f64.
Hypothesis Ha : axis64 a.
Hypothesis Hb : axis64 b.
Hypothesis Fth : fin th = true.
Hypothesis Hx : coord64 cx.
Hypothesis Hy : coord64 cy.
Lemma out_near : forall z t w, v_C z = z_image ieee M a b th -> z_d (v_inv z) = (cx, cy) -> on_border t w -> t <= 1 ->
  fin (fst (v_out ieee z w)) = true /\ fin (snd (v_out ieee z w)) = true /\ Rabs (level64 a b th (cx, cy) (v_out ieee z w) - 1) <= t + back64 a b (cx, cy).
Proof.
  intros z t w EC ED Hw Ht. destruct (unit_norm t w Hw Ht) as (Nw & Bx & By). destruct Hw as (Fx & Fy & _). destruct (image_near sq cosf sinf at2 trig a b th Ha Hb Fth) as (p & q & r & s & E & (Fp & Fq & Fr & Fs) & Op & Oq & Or & Os). fold M in E.
  destruct (axis_range a Ha) as (A1 & A2). destruct (axis_range b Hb) as (B1 & B2). pose proof (bpow_gt_0 radix2 (-34)) as P34. set (m := Rmax (f2r a) (f2r b)). assert (Am : f2r a <= m) by apply Rmax_l. assert (Bm : f2r b <= m) by apply Rmax_r. assert (Mb : m <= bpow radix2 100) by (apply Rmax_lub; auto).
  pose proof (cos_abs (f2r th)) as K1. pose proof (sin_abs (f2r th)) as K2. assert (K3 : Rabs (- sin (f2r th)) <= 1) by (rewrite Rabs_Ropp; exact K2).
  destruct (row_near p q (cos (f2r th)) (- sin (f2r th)) a b w cx m Fp Fq Fx Fy Ha Hb Am Bm Mb K1 K3 Op Oq Bx By Hx) as (F1 & N1). destruct (row_near r s (sin (f2r th)) (cos (f2r th)) a b w cy m Fr Fs Fx Fy Ha Hb Am Bm Mb K2 K1 Or Os Bx By Hy) as (F2 & N2).
  unfold v_out. rewrite EC, E, ED. cbn [fst snd a_add a_mul ieee]. split; [exact F1|split; [exact F2|]].
  set (rx := f2r (fadd (fadd (fmul p (fst w)) (fmul q (snd w))) cx)) in *. set (ry := f2r (fadd (fadd (fmul r (fst w)) (fmul s (snd w))) cy)) in *. set (C := cos (f2r th)) in *. set (T := sin (f2r th)) in *. set (x := f2r (fst w)) in *. set (y := f2r (snd w)) in *. set (A := f2r a) in *. set (B := f2r b) in *.
  set (ex := rx - (C * A * x + - T * B * y + f2r cx)) in *. set (ey := ry - (T * A * x + C * B * y + f2r cy)) in *. assert (CT : T * T + C * C = 1) by exact (sin2_cos2 (f2r th)).
  unfold level64, ahead, aside. cbn [fst snd]. fold rx ry C T A B.
  assert (E1 : C * (rx - f2r cx) + T * (ry - f2r cy) = A * x + (C * ex + T * ey)). { unfold ex, ey. transitivity (C * (rx - f2r cx) + T * (ry - f2r cy) + A * x * (1 - (T * T + C * C))); [rewrite CT; ring|ring]. }
  assert (E2 : - T * (rx - f2r cx) + C * (ry - f2r cy) = B * y + (- T * ex + C * ey)). { unfold ex, ey. transitivity (- T * (rx - f2r cx) + C * (ry - f2r cy) + B * y * (1 - (T * T + C * C))); [rewrite CT; ring|ring]. }
  rewrite E1, E2. set (e1 := C * ex + T * ey). set (e2 := - T * ex + C * ey). set (G := 46 * (u64 * (m + Rabs (f2r cx) + Rabs (f2r cy)))). destruct u64_bounds as ((U0 & _) & EU).
  pose proof (Rabs_pos (f2r cx)) as X0. pose proof (Rabs_pos (f2r cy)) as Y0. assert (m0 : 0 < m) by lra. assert (Um : 0 <= u64 * m) by (apply Rmult_le_pos; lra). assert (Ux : 0 <= u64 * Rabs (f2r cx)) by (apply Rmult_le_pos; lra). assert (Uy : 0 <= u64 * Rabs (f2r cy)) by (apply Rmult_le_pos; lra).
  assert (GE : G = 46 * (u64 * m) + 46 * (u64 * Rabs (f2r cx)) + 46 * (u64 * Rabs (f2r cy))) by (unfold G; ring).
  assert (Sz : forall k v, Rabs k <= 1 -> Rabs (k * v) <= Rabs v) by (intros k v K; rewrite Rabs_mult; rewrite <- (Rmult_1_l (Rabs v)) at 2; apply Rmult_le_compat_r; [apply Rabs_pos|exact K]).
  assert (G1 : Rabs e1 <= G). { unfold e1. eapply Rle_trans; [apply Rabs_triang|]. pose proof (Sz C ex K1). pose proof (Sz T ey K2). lra. }
  assert (G2 : Rabs e2 <= G). { unfold e2. eapply Rle_trans; [apply Rabs_triang|]. pose proof (Sz (- T) ex K3). pose proof (Sz C ey K1). lra. }
  set (mn := Rmin A B). assert (mn0 : 0 < mn) by (apply Rmin_glb_lt; lra). assert (G0 : 0 <= G) by lra.
  assert (Dv : forall e s0, Rabs e <= G -> 0 < s0 -> mn <= s0 -> Rabs (e / s0) <= G / mn).
  { intros e s0 He P L. unfold Rdiv. rewrite Rabs_mult, (Rabs_pos_eq (/ s0)) by (left; apply Rinv_0_lt_compat; lra). apply Rmult_le_compat; [apply Rabs_pos|left; apply Rinv_0_lt_compat; lra|exact He|apply Rinv_le_contravar; lra]. }
  pose proof (Dv e1 A G1 ltac:(lra) (Rmin_l A B)) as V1. pose proof (Dv e2 B G2 ltac:(lra) (Rmin_r A B)) as V2.
  replace ((A * x + e1) / A) with (x + e1 / A) by (field; lra). replace ((B * y + e2) / B) with (y + e2 / B) by (field; lra).
  pose proof (norm_triangle (x + e1 / A) (y + e2 / B) x y) as T1. pose proof (norm_triangle x y (x + e1 / A) (y + e2 / B)) as T2.
  replace (x - (x + e1 / A)) with (- (e1 / A)) in T1 by ring. replace (y - (y + e2 / B)) with (- (e2 / B)) in T1 by ring. rewrite !Rabs_Ropp in T1. replace (x + e1 / A - x) with (e1 / A) in T2 by ring. replace (y + e2 / B - y) with (e2 / B) in T2 by ring.
  assert (BK : G / mn + G / mn <= back64 a b (cx, cy)).
  { unfold back64. cbn [fst snd]. fold A B m mn. assert (TT : bpow radix2 (-46) = 128 * u64) by (rewrite EU; change 128 with (bpow radix2 7); rewrite <- bpow_plus; reflexivity). rewrite TT. unfold Rdiv.
    replace (G * / mn + G * / mn) with (2 * G * / mn) by ring. rewrite <- Rmult_assoc. apply Rmult_le_compat_r; [left; apply Rinv_0_lt_compat; lra|]. replace (128 * u64 * (m + Rabs (f2r cx) + Rabs (f2r cy))) with (128 * (u64 * m) + 128 * (u64 * Rabs (f2r cx)) + 128 * (u64 * Rabs (f2r cy))) by ring. lra. }
  apply Rabs_le_inv in Nw. apply Rabs_le. lra.
Qed.
End Back.
