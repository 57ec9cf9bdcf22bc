(** Lines of bounded slope in the ellipse space. *)
From Coq Require Import Reals ZArith List Bool Lia Lra Psatz.
From Flocq Require Import Core IEEE754.BinarySingleNaN.
From Verif Require Import Prelude Ellipse Rounding RoundedGen RoundedGenProofs2 RoundedGenProofs3 RoundedGenProofs4 EvalTac Doubles DoublesSpec DoublesProofs CtrlDoubles CtrlDoublesProofs NavDoublesSpec StepDoubles StepDoublesSpec StepDoublesProofs
  EllDoubles EllDoublesSpec EllDoublesProofs EllDoublesProofs2 StepDoublesProofs5 ProjDoubles ProjDoublesSpec ProjDoublesProofs ProjDoublesProofs2 ProjDoublesProofs3 ProjDoublesSpec2.
Import ListNotations.
Open Scope R_scope.

Lemma abs_ok : forall x : f64, fin x = true -> fin (Babs x) = true /\ f2r (Babs x) = Rabs (f2r x).
Proof. intros x F. split; [destruct x; auto|unfold f2r; apply B2R_Babs]. Qed.
Lemma opp_ok : forall x, fin x = true -> fin (fopp x) = true /\ f2r (fopp x) = - f2r x.
Proof. intros x F. split; [rewrite fopp_parts; exact F|unfold f2r, fopp; apply B2R_Bopp]. Qed.
Lemma b64_size : forall x B, is_b64 B -> Rabs x <= B -> Rabs (b64 x) <= B.
Proof. intros x B HB H. apply b64_abs; [apply b64_fix; exact HB|exact H]. Qed.
Lemma tiny_ge : fin (v_tiny ieee) = true /\ bpow radix2 (-50) <= f2r (v_tiny ieee).
Proof.
  assert (F : fin (v_tiny ieee) = true) by (vm_compute; reflexivity). split; [exact F|]. assert (K : Bleb (fmake 1 (-50)) (v_tiny ieee) = true) by (vm_compute; reflexivity). rewrite ble_ok in K; auto. rcasesh K; [|discriminate].
  destruct (fmake_ok 1 (-50)) as (_ & V); [unfold F2R; cbn [Fnum Fexp]; rewrite Rmult_1_l; apply big_fin; rewrite Rabs_pos_eq by apply bpow_ge_0; apply bpow_le; lia|].
  rewrite V in Hc. unfold F2R in Hc. cbn [Fnum Fexp] in Hc. rewrite Rmult_1_l, b64_fix in Hc by (rewrite <- (Rmult_1_l (bpow radix2 (-50))); apply (is_b64_dyadic 1 (-50)); lia). exact Hc.
Qed.
Lemma near_rel : forall x y d, Rabs d <= u64 -> y = x * (1 + d) -> Rabs x <= 101 / 100 * Rabs y.
Proof.
  intros x y d D ->. destruct u64_bounds as ((U0 & U1) & _). rewrite Rabs_mult. assert (100 / 101 <= Rabs (1 + d)) by (apply Rabs_le_inv in D; rewrite Rabs_pos_eq; lra). pose proof (Rabs_pos x). assert (Rabs x * (100 / 101) <= Rabs x * Rabs (1 + d)) by (apply Rmult_le_compat_l; lra). lra.
Qed.
Lemma flat_line : forall k p1 p2, (0 <= k <= 18)%Z -> flat64 k p1 p2 -> ~ along_axis p1 p2 ->
  let sigma := fdiv (fopp (v_alpha ieee p1 p2)) (v_beta ieee p1 p2) in let delta := fdiv (fopp (v_gamma ieee p1 p2)) (v_beta ieee p1 p2) in
  fin sigma = true /\ fin delta = true /\ Rabs (f2r sigma) <= bpow radix2 k /\ Rabs (f2r delta) <= 4 * bpow radix2 k.
Proof.
  intros k (x1 & y1) (x2 & y2) Hk ((Fx1 & Bx1) & (Fy1 & By1) & (Fx2 & Bx2) & (Fy2 & By2) & Fl) NA sigma delta. cbn [fst snd] in *. unfold v_alpha, v_beta, v_gamma in *. cbn [fst snd a_sub a_mul ieee] in *.
  destruct u64_bounds as ((U0 & U1) & EU). pose proof eta64_pos as n0. assert (n1 : eta64 <= / 1024 * u64) by (pose proof (eta_below 1 (floor_one 1 ltac:(lra))); lra).
  assert (X4 : forall x, Rabs x <= 8 * bpow radix2 450 -> Rabs x <= top) by (intros x H; apply big_fin; apply Rle_trans with (8 * bpow radix2 450); [exact H|]; change 8 with (bpow radix2 3); rewrite <- bpow_plus; apply bpow_le; lia). pose proof (pw 400 ltac:(lia)) as P4. pose proof (bpow_le radix2 400 450 ltac:(lia)) as P45. pose proof (pw k (proj1 Hk)) as K1. set (K := bpow radix2 k) in *.
  assert (Fa : fin (fsub y1 y2) = true) by (apply fsub_ok; auto; apply X4; unfold Rminus; eapply Rle_trans; [apply Rabs_triang|]; rewrite Rabs_Ropp; lra).
  assert (Fb : fin (fsub x2 x1) = true) by (apply fsub_ok; auto; apply X4; unfold Rminus; eapply Rle_trans; [apply Rabs_triang|]; rewrite Rabs_Ropp; lra).
  destruct (sub_exact y1 y2 Fa) as (da & Da & Ea). destruct (sub_exact x2 x1 Fb) as (db & Db & Eb). set (AL := fsub y1 y2) in *. set (BE := fsub x2 x1) in *. pose proof (near_rel _ _ _ Da Ea) as RA. pose proof (near_rel _ _ _ Db Eb) as RB.
  destruct (abs_ok BE Fb) as (Fbb & Vbb). rename Fl into AB.
  destruct tiny_ge as (Ft & Lt). assert (BT : bpow radix2 (-50) <= Rabs (f2r BE)).
  { destruct (Bltb (Babs BE) (v_tiny ieee)) eqn:E; [exfalso; apply NA; right; exact E|]. rewrite blt_ok, Vbb in E by auto. rcasesh E; [discriminate|]. lra. }
  assert (T8 : bpow radix2 (-50) = 8 * u64) by (rewrite EU; change 8 with (bpow radix2 3); rewrite <- bpow_plus; reflexivity). set (b := Rabs (f2r BE)) in *. assert (ub0 : u64 <= / 8 * b) by lra. assert (b0 : 0 < b) by lra. set (B := K * b) in *. assert (bB : b <= B) by (unfold B; rewrite <- (Rmult_1_l b) at 1; apply Rmult_le_compat_r; lra). assert (ub : u64 <= / 8 * B) by lra. assert (bn : f2r BE <> 0) by (intros Z; unfold b in b0; rewrite Z, Rabs_R0 in b0; lra).
  assert (Q : forall v q, Rabs v <= q * b -> Rabs (v / f2r BE) <= q).
  { intros v q H. unfold Rdiv. rewrite Rabs_mult, Rabs_inv. fold b. apply Rmult_le_reg_r with b; [exact b0|]. rewrite Rmult_assoc, Rinv_l by lra. lra. }
  assert (D1 : Rabs (f2r y1 - f2r y2) <= 101 / 100 * B) by lra. assert (D2 : Rabs (f2r x2 - f2r x1) <= 101 / 100 * B) by (apply Rle_trans with (101 / 100 * b); [exact RB|lra]).
  assert (S2 : Rabs (f2r y2) <= 3 / 2 + 101 / 100 * B) by (replace (f2r y2) with (f2r y1 - (f2r y1 - f2r y2)) by ring; unfold Rminus at 1; eapply Rle_trans; [apply Rabs_triang|]; rewrite Rabs_Ropp; lra).
  assert (S1 : Rabs (f2r x2) <= 3 / 2 + 101 / 100 * B) by (replace (f2r x2) with (f2r x1 + (f2r x2 - f2r x1)) by ring; eapply Rle_trans; [apply Rabs_triang|]; lra).
  assert (Pr : forall u v, fin u = true -> fin v = true -> Rabs (f2r u) <= 3 / 2 -> Rabs (f2r v) <= 3 / 2 + 101 / 100 * B -> Rabs (f2r v) <= bpow radix2 400 ->
     fin (fmul u v) = true /\ Rabs (f2r (fmul u v) - f2r u * f2r v) <= 9 / 4 * u64 + / 1000 * B /\ Rabs (f2r u * f2r v) <= 3 / 2 * bpow radix2 400).
  { intros u v Fu Fv Hu Hv Hv4. assert (P1 : Rabs (f2r u * f2r v) <= 3 / 2 * bpow radix2 400) by (rewrite Rabs_mult; apply Rmult_le_compat; auto; apply Rabs_pos). assert (P2 : Rabs (f2r u * f2r v) <= 3 / 2 * (3 / 2 + 101 / 100 * B)) by (rewrite Rabs_mult; apply Rmult_le_compat; auto; apply Rabs_pos).
    destruct (fmul_ok u v Fu Fv) as (F & V); [apply X4; lra|]. split; [exact F|split; [|exact P1]]. rewrite V. pose proof (b64_near _ _ P2) as N. assert (u64 * B <= / 9007199254740992 * B) by (apply Rmult_le_compat_r; lra). lra. }
  destruct (Pr x1 y2 Fx1 Fy2 Bx1 S2 By2) as (F1 & N1 & Z1). destruct (Pr y1 x2 Fy1 Fx2 By1 S1 Bx2) as (F2 & N2 & Z2).
  assert (CM : fmul x2 y1 = fmul y1 x2 \/ (fin (fmul x2 y1) = true /\ f2r (fmul x2 y1) = f2r (fmul y1 x2))).
  { right. destruct (fmul_ok x2 y1 Fx2 Fy1) as (F & V); [rewrite Rmult_comm; apply X4; lra|]. split; [exact F|]. rewrite V, Rmult_comm. destruct (fmul_ok y1 x2 Fy1 Fx2) as (_ & V'); [apply X4; lra|]. auto. }
  assert (F3 : fin (fmul x2 y1) = true /\ Rabs (f2r (fmul x2 y1) - f2r y1 * f2r x2) <= 9 / 4 * u64 + / 1000 * B) by (destruct CM as [->|(G1 & G2)]; [auto|split; [exact G1|rewrite G2; exact N2]]). destruct F3 as (F3 & N3).
  set (g1 := f2r (fmul x1 y2)) in *. set (g2 := f2r (fmul x2 y1)) in *.
  assert (EX : Rabs (f2r x1 * f2r y2 - f2r y1 * f2r x2) <= 303 / 100 * B).
  { replace (f2r x1 * f2r y2 - f2r y1 * f2r x2) with (- (f2r x1 * (f2r y1 - f2r y2)) + - (f2r y1 * (f2r x2 - f2r x1))) by ring. eapply Rle_trans; [apply Rabs_triang|]. rewrite !Rabs_Ropp, !Rabs_mult.
    assert (Rabs (f2r x1) * Rabs (f2r y1 - f2r y2) <= 3 / 2 * (101 / 100 * B)) by (apply Rmult_le_compat; auto; apply Rabs_pos). assert (Rabs (f2r y1) * Rabs (f2r x2 - f2r x1) <= 3 / 2 * (101 / 100 * B)) by (apply Rmult_le_compat; auto; apply Rabs_pos). lra. }
  assert (G : Rabs (g1 - g2) <= 37 / 10 * B).
  { replace (g1 - g2) with ((g1 - f2r x1 * f2r y2) + - (g2 - f2r y1 * f2r x2) + (f2r x1 * f2r y2 - f2r y1 * f2r x2)) by ring. eapply Rle_trans; [apply Rabs_triang|]. pose proof (Rabs_triang (g1 - f2r x1 * f2r y2) (- (g2 - f2r y1 * f2r x2))) as T. rewrite Rabs_Ropp in T. lra. }
  assert (bb0 : b <= 8 * bpow radix2 400 / 4). { unfold b. rewrite Eb, Rabs_mult. assert (Rabs (1 + db) <= 11 / 10) by (apply Rabs_le_inv in Db; apply Rabs_le; lra). assert (Rabs (f2r x2 - f2r x1) <= bpow radix2 400 + 3 / 2) by (unfold Rminus; eapply Rle_trans; [apply Rabs_triang|]; rewrite Rabs_Ropp; lra).
    assert (P40 : 1024 <= bpow radix2 400) by (change 1024 with (bpow radix2 10); apply bpow_le; lia). apply Rle_trans with ((bpow radix2 400 + 3 / 2) * (11 / 10)); [apply Rmult_le_compat; auto; apply Rabs_pos|lra]. }
  assert (bb : B <= 2 * bpow radix2 450). { unfold B. apply Rle_trans with (bpow radix2 18 * (8 * bpow radix2 400 / 4)); [apply Rmult_le_compat; try lra; apply bpow_le; lia|]. assert (bpow radix2 18 * bpow radix2 400 <= bpow radix2 450) by (rewrite <- bpow_plus; apply bpow_le; lia). lra. }
  destruct (fsub_ok (fmul x1 y2) (fmul x2 y1) F1 F3) as (Fg & _); [fold g1 g2; apply X4; lra|]. destruct (sub_exact _ _ Fg) as (dg & Dg & Eg). fold g1 g2 in Eg. set (GA := fsub (fmul x1 y2) (fmul x2 y1)) in *.
  assert (GB : Rabs (f2r GA) <= 4 * B). { rewrite Eg, Rabs_mult. assert (Rabs (1 + dg) <= 101 / 100) by (apply Rabs_le_inv in Dg; apply Rabs_le; lra). apply Rle_trans with (37 / 10 * B * (101 / 100)); [apply Rmult_le_compat; auto; apply Rabs_pos|lra]. }
  destruct (opp_ok AL Fa) as (Foa & Voa). destruct (opp_ok GA Fg) as (Fog & Vog).
  assert (Qa : Rabs (f2r (fopp AL) / f2r BE) <= K) by (apply Q; rewrite Voa, Rabs_Ropp; exact AB). assert (Qg : Rabs (f2r (fopp GA) / f2r BE) <= 4 * K) by (apply Q; rewrite Vog, Rabs_Ropp; replace (4 * K * b) with (4 * B) by (unfold B; ring); exact GB).
  assert (K4 : 4 * K <= bpow radix2 400) by (unfold K; change 4 with (bpow radix2 2); rewrite <- bpow_plus; apply bpow_le; lia). destruct (fdiv_ok (fopp AL) BE Foa bn) as (Fsg & Vsg); [apply X4; lra|]. destruct (fdiv_ok (fopp GA) BE Fog bn) as (Fdl & Vdl); [apply X4; lra|].
  split; [exact Fsg|split; [exact Fdl|]]. split; [unfold sigma; rewrite Vsg; apply b64_size; [unfold K; rewrite <- (Rmult_1_l (bpow radix2 k)); apply (is_b64_dyadic 1 k); lia|exact Qa]|unfold delta; rewrite Vdl; apply b64_size; [unfold K; apply (is_b64_dyadic 4 k); lia|exact Qg]].
Qed.
(** A norm that cannot overflow. *)
Lemma norm_fin : forall sq c s at2 w, fin (fst w) = true -> fin (snd w) = true -> Rabs (f2r (fst w)) <= bpow radix2 400 -> Rabs (f2r (snd w)) <= bpow radix2 400 -> fin (v_norm ieee (ieee_maths sq c s at2) w) = true.
Proof.
  intros sq c s at2 (x & y) Fx Fy Bx By. cbn [fst snd] in *. unfold v_norm. cbn [fst snd a_add a_mul ieee x_sqrt ieee_maths].
  assert (K : forall v, fin v = true -> Rabs (f2r v) <= bpow radix2 400 -> fin (fmul v v) = true /\ 0 <= f2r (fmul v v) <= bpow radix2 800).
  { intros v F B. pose proof (Rle_0_sqr (f2r v)) as Q. unfold Rsqr in Q. assert (Z : f2r v * f2r v <= bpow radix2 800) by (change 800%Z with (400 + 400)%Z; rewrite bpow_plus, <- (Rabs_pos_eq (f2r v * f2r v)), Rabs_mult by auto; apply Rmult_le_compat; auto; apply Rabs_pos).
    destruct (fmul_ok v v F F) as (G & V); [apply big_fin; rewrite Rabs_pos_eq by auto; pose proof (bpow_le radix2 800 1000 ltac:(lia)); lra|]. split; [exact G|]. rewrite V. split; [apply b64_nonneg; exact Q|].
    rewrite <- (Rabs_pos_eq (b64 _)) by (apply b64_nonneg; exact Q). apply b64_size; [rewrite <- (Rmult_1_l (bpow radix2 800)); apply (is_b64_dyadic 1 800); lia|rewrite Rabs_pos_eq; auto]. }
  destruct (K x Fx Bx) as (F1 & A1). destruct (K y Fy By) as (F2 & A2). destruct (fadd_ok _ _ F1 F2) as (F & V); [apply big_fin; rewrite Rabs_pos_eq by lra; apply Rle_trans with (2 * bpow radix2 800); [lra|]; change 2 with (bpow radix2 1); rewrite <- bpow_plus; apply bpow_le; lia|].
  apply fsqrt_ok; [exact F|]. rewrite V. apply b64_nonneg. lra.
Qed.
(** A point found inside has coordinates of at most 3/2. *)
Lemma inside_small : forall sq c s at2 w, Bleb (v_norm ieee (ieee_maths sq c s at2) w) f1 = true -> fin (fst w) = true /\ fin (snd w) = true /\ Rabs (f2r (fst w)) <= 3 / 2 /\ Rabs (f2r (snd w)) <= 3 / 2.
Proof.
  intros sq c s at2 w H. destruct f1_ok as (F1 & V1). assert (L : Bltb (v_norm ieee (ieee_maths sq c s at2) w) (fmake 2 0) = true).
  { destruct (le64_number _ _ H) as (Nn & _). pose proof (le64_inv _ _ H) as K. destruct (fmake_exact 2 ltac:(lia)) as (F2 & V2). rewrite blt_key by (auto; apply fin_number; auto). rewrite (key_fin f1), V1 in K by auto. rewrite (key_fin (fmake 2 0)), V2 by auto. rcases; [reflexivity|lra]. }
  destruct (fmake_exact 2 ltac:(lia)) as (F2 & V2). destruct (root_below _ _ F2 L) as (F & _). change (fin (v_norm ieee (ieee_maths sq c s at2) w) = true) in F.
  destruct (norm_near (fun x => fmul x x) c s at2 fmul_square w F) as (Fx & Fy & N). change (g_norm ieee (ieee_maths (fun x => fmul x x) c s at2) w) with (v_norm ieee (ieee_maths sq c s at2) w) in N. rewrite ble_ok, V1 in H by auto. rcasesh H; [|discriminate].
  set (x := f2r (fst w)) in *. set (y := f2r (snd w)) in *. pose proof (Rle_0_sqr x) as X. pose proof (Rle_0_sqr y) as Y. unfold Rsqr in X, Y. set (n := sqrt (x * x + y * y)) in *. assert (n0 : 0 <= n) by apply sqrt_pos. assert (nn : n * n = x * x + y * y) by (apply sqrt_def; lra).
  destruct u64_bounds as ((U0 & U1) & _). assert (u64 * n <= / 9007199254740992 * n) by (apply Rmult_le_compat_r; lra). pose proof (bpow_le radix2 (-530) (-10) ltac:(lia)) as E. change (bpow radix2 (-10)) with (/ 1024) in E.
  assert (n1 : n <= 5 / 4) by (apply Rabs_le_inv in N; lra). assert (n * n <= 5 / 4 * (5 / 4)) by (apply Rmult_le_compat; lra).
  repeat split; auto; rewrite <- (Rabs_pos_eq (3 / 2)) by lra; apply Rsqr_le_abs_0; unfold Rsqr; lra.
Qed.
(** The generators of a point of the plane. *)
Lemma gen_small : forall sq c s at2 a b th cx cy p, let M := ieee_maths sq c s at2 in let z := MkFree (z_image ieee M a b th) (z_inverse ieee M (z_image ieee M a b th) (cx, cy)) in
  close_trig c s -> axis64 a -> axis64 b -> fin th = true -> coord64 cx -> coord64 cy -> coord64 (fst p) -> coord64 (snd p) ->
  within64 (bpow radix2 400) (fst (v_gen ieee z p)) /\ within64 (bpow radix2 400) (snd (v_gen ieee z p)).
Proof.
  intros sq c s at2 a b th cx cy p M z trig Ha Hb Fth (Fcx & Lcx) (Fcy & Lcy) (Fpx & Lpx) (Fpy & Lpy).
  destruct (inverse_near sq c s at2 trig a b th cx cy Ha Hb Fth) as (z' & Ez & Ed & (Z1 & Z2 & Z3 & Z4) & I1 & I2 & I3 & I4). fold M in Ez.
  pose proof (cos_abs (f2r th)) as B1. pose proof (sin_abs (f2r th)) as B2. assert (B3 : Rabs (- sin (f2r th)) <= 1) by (rewrite Rabs_Ropp; exact B2). pose proof (axis_range a Ha) as RA. pose proof (axis_range b Hb) as RB.
  assert (DD : forall x y, Rabs x <= bpow radix2 200 -> Rabs y <= bpow radix2 200 -> Rabs (x - y) <= bpow radix2 201).
  { intros x y X Y. unfold Rminus. eapply Rle_trans; [apply Rabs_triang|]. rewrite Rabs_Ropp. change 201%Z with (1 + 200)%Z. rewrite bpow_plus. change (bpow radix2 1) with 2. lra. }
  pose proof (DD _ _ Lpx Lcx) as Dx. pose proof (DD _ _ Lpy Lcy) as Dy. assert (B201 : bpow radix2 201 <= bpow radix2 1000) by (apply bpow_le; lia).
  destruct (fsub_ok (fst p) cx Fpx Fcx) as (Fvx & _); [apply big_fin; lra|]. destruct (fsub_ok (snd p) cy Fpy Fcy) as (Fvy & _); [apply big_fin; lra|].
  pose proof (off_sub _ _ Fvx) as O0. pose proof (off_sub _ _ Fvy) as O1. pose proof (bpow_le radix2 300 400 ltac:(lia)) as B34.
  destruct (component_fin _ _ _ _ _ _ _ _ _ (proj1 RA) B1 B2 I1 I2 O0 O1 Dx Dy Z1 Z2 Fvx Fvy) as (Fx & Bx). destruct (component_fin _ _ _ _ _ _ _ _ _ (proj1 RB) B3 B1 I3 I4 O0 O1 Dx Dy Z3 Z4 Fvx Fvy) as (Fy & By).
  unfold z, v_gen, g_sub. cbn [v_inv]. rewrite Ez. rewrite Ed. cbn [fst snd a_add a_mul a_sub ieee]. split; (split; [assumption|lra]).
Qed.
