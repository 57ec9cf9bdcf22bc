(** The rounding of the cost. *)
From Coq Require Import Reals ZArith Lra Lia List Bool.
From Flocq Require Import Core IEEE754.BinarySingleNaN.
From Verif Require Import Prelude FootPrint Rounding RoundedGen RoundedGenSpec RoundedGenProofs2 RoundedGenProofs3 RoundedGenProofs4
  EvalTac Doubles DoublesSpec DoublesProofs DoublesProofs2 CtrlDoubles CtrlDoublesSpec CtrlDoublesProofs TrackDoublesProofs TimedPlan StepDoubles StepDoublesSpec
  StepDoublesProofs StepDoublesProofs2 LeastCostSpec.
Import ListNotations.
Open Scope R_scope.

Definition near (K x X d : R) : Prop := Rabs (x - X) <= K * u64 * X + d.
Notation tiny := (bpow radix2 (-540)).
Lemma tiny_facts : 0 < tiny /\ 8 * eta64 <= tiny /\ bpow radix2 516 * eta64 <= / 1024 * tiny.
Proof.
  unfold eta64. pose proof (bpow_gt_0 radix2 (-540)). pose proof (bpow_gt_0 radix2 (-1074)). split; auto. split.
  - assert (bpow radix2 (3 + -1074) <= tiny) by (apply bpow_le; lia). rewrite bpow_plus in H1. change (bpow radix2 3) with 8 in H1. lra.
  - replace (bpow radix2 516 * (/ 2 * bpow radix2 (-1074))) with (/ 2 * bpow radix2 (516 + -1074)) by (rewrite bpow_plus; ring). replace (/ 1024 * tiny) with (bpow radix2 (-10 + -540)) by (rewrite bpow_plus; reflexivity).
    pose proof (bpow_le radix2 (516 + -1074) (-10 + -540) ltac:(lia)). pose proof (bpow_gt_0 radix2 (516 + -1074)). lra.
Qed.
Lemma eta_small : eta64 <= / 1024.
Proof. destruct tiny_facts as (_ & A & _). pose proof (bpow_le radix2 (-540) (-10) ltac:(lia)). change (bpow radix2 (-10)) with (/ 1024) in *. pose proof eta64_pos. lra. Qed.
Lemma mean : forall a b, 0 <= a -> 0 <= b -> a * a <= b * b -> a <= b.
Proof. intros. apply Rsqr_incr_0_var; auto. Qed.
(** Squares that do not overflow. *)
Lemma square_small : forall x e, 0 <= x -> x * x <= bpow radix2 e -> (0 <= e)%Z -> x <= bpow radix2 (e / 2 + 1).
Proof.
  intros x e X H E. apply mean; auto; [apply bpow_ge_0|]. eapply Rle_trans; [exact H|]. rewrite <- bpow_plus. apply bpow_le. pose proof (Z.mul_div_le e 2 ltac:(lia)). pose proof (Z.mod_pos_bound e 2 ltac:(lia)). pose proof (Z.div_mod e 2 ltac:(lia)). lia.
Qed.
Lemma f2r_big : forall x, Rabs (f2r x) < bpow radix2 1024.
Proof. intros x. apply (abs_B2R_lt_emax 53 1024). Qed.

Section Cost.
Variables (sq c s : f64 -> f64) (at2 : f64 -> f64 -> f64).
Hypothesis trig : close_trig c s.
Hypothesis squ : close_square sq.
Notation M := (ieee_maths sq c s at2).

Lemma sq_near : forall x, fin (sq x) = true -> fin x = true /\ Rabs (f2r (sq x) - f2r x * f2r x) <= 2 * u64 * (f2r x * f2r x) + eta64.
Proof.
  intros x F. destruct (squ x F) as (Fx & H). split; auto. destruct u64_bounds as (_ & EU).
  assert (E : bpow radix2 (-52) = 2 * u64) by (rewrite EU; change (-52)%Z with (1 + -53)%Z; rewrite bpow_plus; reflexivity).
  assert (E2 : bpow radix2 (-1075) = eta64) by (unfold eta64; change (-1075)%Z with (-1 + -1074)%Z; rewrite bpow_plus; reflexivity). rewrite E, E2 in H. exact H.
Qed.
Lemma sq_bound : forall x, fin (sq x) = true -> f2r x * f2r x <= bpow radix2 1025 /\ Rabs (f2r x) <= bpow radix2 513.
Proof.
  intros x F. destruct (sq_near x F) as (_ & H). pose proof (f2r_big (sq x)) as B. apply Rabs_def2 in B. destruct B as (B & _). apply Rabs_le_inv in H. destruct u64_bounds as ((U0 & U1) & _).
  pose proof eta_small as E. assert (P : 0 <= f2r x * f2r x) by apply Rle_0_sqr. assert (UX : u64 * (f2r x * f2r x) <= / 1024 * (f2r x * f2r x)) by (apply Rmult_le_compat_r; lra).
  assert (O : 1 <= bpow radix2 1024) by (apply (bpow_le radix2 0 1024); lia). assert (E2 : bpow radix2 1025 = 2 * bpow radix2 1024) by (change 1025%Z with (1 + 1024)%Z; rewrite bpow_plus; reflexivity).
  assert (Q : f2r x * f2r x <= bpow radix2 1025) by lra. split; auto.
  change 513%Z with (1025 / 2 + 1)%Z. apply square_small; [apply Rabs_pos| |lia]. rewrite <- Rabs_mult, Rabs_pos_eq; auto.
Qed.
(** One over the square of the duration. *)
Lemma inverse_near : forall dt, fin dt = true -> 0 < f2r dt -> fin (sq (fdiv f1 dt)) = true -> near 5 (f2r (sq (fdiv f1 dt))) (/ (f2r dt * f2r dt)) tiny.
Proof.
  intros dt Fd Pd F. destruct (sq_near _ F) as (Fq & N). destruct (sq_bound _ F) as (_ & B). destruct f1_ok as (_ & V1).
  assert (V : f2r (fdiv f1 dt) = b64 (/ f2r dt)) by (rewrite fdiv_fin; auto; [rewrite V1; f_equal; field; lra|lra]).
  set (q := f2r (fdiv f1 dt)) in *. set (D := / f2r dt) in *. assert (PD : 0 < D) by (apply Rinv_0_lt_compat; auto).
  assert (ED : / (f2r dt * f2r dt) = D * D) by (unfold D; field; lra). unfold near. rewrite ED. destruct u64_bounds as ((U0 & U1) & _). pose proof eta64_pos as n0. destruct tiny_facts as (T0 & T1 & T2). pose proof eta_small as ES.
  pose proof (b64_near D D) as NQ. rewrite Rabs_pos_eq in NQ by lra. specialize (NQ (Rle_refl _)). rewrite <- V in NQ.
  assert (UD : u64 * D <= / 1024 * D) by (apply Rmult_le_compat_r; lra). apply Rabs_le_inv in B. pose proof NQ as NQ'. apply Rabs_le_inv in NQ'.
  assert (O : 1 <= bpow radix2 513) by (apply (bpow_le radix2 0 513); lia). assert (E2 : bpow radix2 516 = 8 * bpow radix2 513) by (change 516%Z with (3 + 513)%Z; rewrite bpow_plus; reflexivity).
  assert (BD : D <= bpow radix2 516 / 4) by lra. assert (DE : D * eta64 <= / 4096 * tiny) by (assert (D * eta64 <= bpow radix2 516 / 4 * eta64) by (apply Rmult_le_compat_r; lra); lra).
  assert (EE : eta64 * eta64 <= eta64 * 1) by (apply Rmult_le_compat_l; lra). set (w := D * D) in *. assert (W : 0 < w) by (apply Rmult_lt_0_compat; auto).
  assert (UW : u64 * w <= / 1024 * w) by (apply Rmult_le_compat_r; lra). assert (UUW : u64 * (u64 * w) <= / 1024 * (u64 * w)) by (apply Rmult_le_compat_r; [apply Rmult_le_pos; lra|lra]).
  assert (UE : u64 * (D * eta64) <= 1 * (D * eta64)) by (apply Rmult_le_compat_r; [apply Rmult_le_pos; lra|lra]).
  assert (QQ : Rabs (q * q - w) <= 17 / 8 * (u64 * w) + / 512 * tiny + eta64).
  { replace (q * q - w) with ((q - D) * (q + D)) by (unfold w; ring). rewrite Rabs_mult. assert (S1 : Rabs (q + D) <= 2 * D + u64 * D + eta64) by (apply Rabs_le; lra).
    eapply Rle_trans; [apply Rmult_le_compat; [apply Rabs_pos|apply Rabs_pos|exact NQ|exact S1]|].
    replace ((u64 * D + eta64) * (2 * D + u64 * D + eta64)) with (2 * (u64 * w) + u64 * (u64 * w) + 2 * (u64 * (D * eta64)) + 2 * (D * eta64) + eta64 * eta64) by (unfold w; ring). assert (0 <= u64 * w) by (apply Rmult_le_pos; lra). lra. }
  apply Rabs_le_inv in QQ. assert (QB : q * q <= 2 * w + tiny) by lra. assert (UQ : u64 * (q * q) <= u64 * (9 / 8 * w + tiny)) by (apply Rmult_le_compat_l; lra).
  assert (UT : u64 * tiny <= / 1024 * tiny) by (apply Rmult_le_compat_r; lra). apply Rabs_le_inv in N. apply Rabs_le. lra.
Qed.
(** The square of the distance. *)
Lemma distance_near : forall th a b, let r := g_rotT ieee M th (g_sub ieee b a) in fin (fadd (sq (fst r)) (sq (snd r))) = true ->
  near 40 (f2r (fadd (sq (fst r)) (sq (snd r)))) (apart a b * apart a b) tiny.
Proof.
  intros th a b r F. destruct (fadd_parts _ _ F) as (F1 & F2). destruct (sq_near _ F1) as (Fx & Nx). destruct (sq_near _ F2) as (Fy & Ny). destruct (sq_bound _ F1) as (_ & Bx). destruct (sq_bound _ F2) as (_ & By).
  destruct (turned_ahead sq c s at2 trig th a b Fx) as (_ & Tx). pose proof (turned_aside sq c s at2 trig th a b Fy) as Ty. pose proof (turned_length th a b) as TL. fold r in Tx, Ty.
  rewrite (fadd_fin _ _ F1 F2 F). set (x := f2r (fst r)) in *. set (y := f2r (snd r)) in *. set (X := ahead th a b) in *. set (Y := aside th a b) in *. pose proof (sum_root X Y) as SR. rewrite TL in SR.
  assert (A0 : 0 <= apart a b) by (rewrite <- TL; apply sqrt_pos). assert (AA : apart a b * apart a b = X * X + Y * Y).
  { rewrite <- TL. apply sqrt_def. pose proof (Rle_0_sqr X). pose proof (Rle_0_sqr Y). unfold Rsqr in *. lra. }
  set (d := apart a b) in *. destruct u64_bounds as ((U0 & U1) & _). pose proof eta64_pos as n0. destruct tiny_facts as (T0 & T1 & T2). pose proof eta_small as ES.
  assert (UD : u64 * d <= / 1024 * d) by (apply Rmult_le_compat_r; lra).
  assert (BD : d <= bpow radix2 516 / 2).
  { assert (E2 : bpow radix2 516 = 8 * bpow radix2 513) by (change 516%Z with (3 + 513)%Z; rewrite bpow_plus; reflexivity). assert (O : 1 <= bpow radix2 513) by (apply (bpow_le radix2 0 513); lia).
    pose proof (norm_triangle X Y x y) as K. rewrite TL in K. fold d in K. assert (K2 : sqrt (x * x + y * y) <= Rabs x + Rabs y).
    { apply mean; [apply sqrt_pos|pose proof (Rabs_pos x); pose proof (Rabs_pos y); lra|]. rewrite sqrt_def by (pose proof (Rle_0_sqr x); pose proof (Rle_0_sqr y); unfold Rsqr in *; lra).
      assert (Rabs x * Rabs x = x * x) by (rewrite <- Rabs_mult; apply Rabs_pos_eq; apply Rle_0_sqr). assert (Rabs y * Rabs y = y * y) by (rewrite <- Rabs_mult; apply Rabs_pos_eq; apply Rle_0_sqr).
      assert (0 <= Rabs x * Rabs y) by (apply Rmult_le_pos; apply Rabs_pos). lra. }
    lra. }
  assert (DE : d * eta64 <= / 2048 * tiny) by (assert (d * eta64 <= bpow radix2 516 / 2 * eta64) by (apply Rmult_le_compat_r; lra); lra).
  assert (EE : eta64 * eta64 <= eta64 * / 1024) by (apply Rmult_le_compat_l; lra). set (w := d * d) in *. assert (W : 0 <= w) by (apply Rmult_le_pos; auto).
  assert (UW : u64 * w <= / 1024 * w) by (apply Rmult_le_compat_r; lra). assert (UW0 : 0 <= u64 * w) by (apply Rmult_le_pos; lra). assert (UUW : u64 * (u64 * w) <= / 1024 * (u64 * w)) by (apply Rmult_le_compat_r; lra).
  assert (UE : u64 * (d * eta64) <= / 1024 * (d * eta64)) by (apply Rmult_le_compat_r; [apply Rmult_le_pos; lra|lra]). assert (DE0 : 0 <= d * eta64) by (apply Rmult_le_pos; lra).
  set (e := 33 / 4 * u64 * d + 4 * eta64) in *. assert (E0 : 0 <= e) by (unfold e; assert (0 <= u64 * d) by (apply Rmult_le_pos; lra); lra).
  assert (G : forall p q, Rabs (p - q) <= e -> Rabs (p * p - q * q) <= e * (2 * Rabs q + e)).
  { intros p q H. replace (p * p - q * q) with ((p - q) * (p + q)) by ring. rewrite Rabs_mult. apply Rmult_le_compat; auto; try apply Rabs_pos. replace (p + q) with ((p - q) + 2 * q) by ring.
    eapply Rle_trans; [apply Rabs_triang|]. rewrite Rabs_mult, (Rabs_pos_eq 2) by lra. lra. }
  pose proof (G _ _ Tx) as Gx. pose proof (G _ _ Ty) as Gy.
  assert (QQ : Rabs (x * x + y * y - w) <= 26 * (u64 * w) + / 8 * tiny).
  { replace (x * x + y * y - w) with ((x * x - X * X) + (y * y - Y * Y)) by (rewrite AA; ring). eapply Rle_trans; [apply Rabs_triang|].
    assert (EM : e * (2 * (Rabs X + Rabs Y)) <= e * (3 * d)) by (apply Rmult_le_compat_l; lra).
    replace (e * (2 * Rabs X + e)) with (e * (2 * Rabs X) + e * e) in Gx by ring. replace (e * (2 * Rabs Y + e)) with (e * (2 * Rabs Y) + e * e) in Gy by ring.
    assert (R1 : e * (3 * d) = 99 / 4 * (u64 * w) + 12 * (d * eta64)) by (unfold e, w; field). assert (R2 : e * e = 1089 / 16 * (u64 * (u64 * w)) + 66 * (u64 * (d * eta64)) + 16 * (eta64 * eta64)) by (unfold e, w; field).
    assert (R3 : e * (2 * (Rabs X + Rabs Y)) = e * (2 * Rabs X) + e * (2 * Rabs Y)) by ring. lra. }
  assert (X2 : 0 <= x * x) by apply Rle_0_sqr. assert (Y2 : 0 <= y * y) by apply Rle_0_sqr. set (v := x * x + y * y) in *. apply Rabs_le_inv in QQ. apply Rabs_le_inv in Nx. apply Rabs_le_inv in Ny.
  set (p := f2r (sq (fst r)) + f2r (sq (snd r))) in *.
  assert (PV : Rabs (p - v) <= 2 * (u64 * v) + 2 * eta64) by (apply Rabs_le; unfold p, v; lra). apply Rabs_le_inv in PV.
  assert (UV : u64 * v <= u64 * (9 / 8 * w + tiny)) by (apply Rmult_le_compat_l; lra). assert (UT : u64 * tiny <= / 1024 * tiny) by (apply Rmult_le_compat_r; lra).
  assert (UV' : u64 * v <= 9 / 8 * (u64 * w) + / 1024 * tiny) by lra.
  assert (PB : Rabs p <= 5 / 4 * w + tiny) by (apply Rabs_le; unfold v in *; lra).
  pose proof (b64_near p _ PB) as NP. apply Rabs_le_inv in NP. unfold near. apply Rabs_le. lra.
Qed.
(** A weight times a value. *)
Lemma weighted_near : forall K w x X, 0 <= K <= 64 -> 0 <= f2r w -> 0 <= X -> fin (fmul w x) = true -> near K (f2r x) X tiny -> near (K + 2) (f2r (fmul w x)) (f2r w * X) (2 * (f2r w * tiny) + eta64).
Proof.
  intros K w x X HK HW HX F N. unfold near in *. rewrite (fmul_fin _ _ F). set (k := f2r w) in *. set (z := f2r x) in *. destruct u64_bounds as ((U0 & U1) & _). destruct tiny_facts as (T0 & _).
  assert (D : Rabs (k * z - k * X) <= k * (K * u64 * X + tiny)). { replace (k * z - k * X) with (k * (z - X)) by ring. rewrite Rabs_mult, (Rabs_pos_eq k) by auto. apply Rmult_le_compat_l; auto. }
  assert (P : 0 <= k * X) by (apply Rmult_le_pos; auto). assert (T : 0 <= k * tiny) by (apply Rmult_le_pos; lra). assert (UP : 0 <= u64 * (k * X)) by (apply Rmult_le_pos; lra).
  assert (KU : K * (u64 * (k * X)) <= 64 * (u64 * (k * X))) by (apply Rmult_le_compat_r; lra). assert (UP2 : u64 * (k * X) <= / 1024 * (k * X)) by (apply Rmult_le_compat_r; lra).
  replace (k * (K * u64 * X + tiny)) with (K * (u64 * (k * X)) + k * tiny) in D by ring. apply Rabs_le_inv in D.
  assert (B : Rabs (k * z) <= 17 / 16 * (k * X) + k * tiny) by (assert (0 <= K * (u64 * (k * X))) by (apply Rmult_le_pos; lra); apply Rabs_le; lra). pose proof (b64_near _ _ B) as NB. apply Rabs_le_inv in NB.
  assert (UT : u64 * (k * tiny) <= 1 * (k * tiny)) by (apply Rmult_le_compat_r; lra).
  replace (u64 * (17 / 16 * (k * X) + k * tiny)) with (17 / 16 * (u64 * (k * X)) + u64 * (k * tiny)) in NB by ring. replace ((K + 2) * u64 * (k * X)) with (K * (u64 * (k * X)) + 2 * (u64 * (k * X))) by ring. apply Rabs_le. lra.
Qed.
Theorem cost_near : forall S len back width angle free (sw : bool) prev u ang dt, let prob := MkDQ len back width angle free (S q_posW) (S q_timeW) in
  let cost := k_cost ieee M prob (g_point ieee M S sw prev u ang dt) in
  0 <= f2r (S q_timeW) -> 0 <= f2r (S q_posW) -> fin dt = true -> lt64 fzero dt -> fin cost = true ->
  let E := landing64 S dt (spot prev) (spot (g_pose ieee M S sw u)) in Rabs (f2r cost - E) <= bpow radix2 (-47) * E + cost_slack S.
Proof.
  intros S len back width angle free sw prev u ang dt prob cost Ht Hp Fd Pd F E. assert (PD : 0 < f2r dt). { unfold lt64 in Pd. rewrite blt_ok in Pd; auto. rcasesh Pd; [exact Hc|discriminate]. }
  unfold cost, k_cost in F |- *. rewrite c1_one in *. cbn [prob k_timeW k_posW g_point y_dt y_rPl a_add a_mul a_div ieee x_sqr ieee_maths] in *.
  set (r := g_rPl ieee M S sw prev u) in *. destruct (fadd_parts _ _ F) as (F1 & F2). destruct (fmul_parts _ _ F1) as (_ & F3). destruct (fmul_parts _ _ F2) as (_ & F4).
  pose proof (inverse_near dt Fd PD F3) as N1.
  assert (N2 : near 40 (f2r (fadd (sq (fst r)) (sq (snd r)))) (apart (spot prev) (spot (g_pose ieee M S sw u)) * apart (spot prev) (spot (g_pose ieee M S sw u))) tiny).
  { assert (Ep : g_pos ieee M S sw u = spot (g_pose ieee M S sw u)) by (unfold g_pose, spot; cbv zeta; destruct (g_pos ieee M S sw u); reflexivity).
    unfold r, g_rPl in *. change (g_at prev) with (spot prev) in *. destruct sw; rewrite Ep in *; [|rewrite (apart_sym (spot prev))]; apply distance_near; exact F4. }
  set (d := apart _ _) in *. assert (P1 : 0 <= / (f2r dt * f2r dt)) by (apply Rlt_le, Rinv_0_lt_compat, Rmult_lt_0_compat; auto). assert (P2 : 0 <= d * d) by apply Rle_0_sqr.
  apply (weighted_near 5 (S q_timeW) _ _ ltac:(lra) Ht P1 F1) in N1. apply (weighted_near 40 (S q_posW) _ _ ltac:(lra) Hp P2 F2) in N2. rewrite (fadd_fin _ _ F1 F2 F). set (p := f2r (fmul _ _)) in *. set (q := f2r (fmul (S q_posW) _)) in *.
  assert (EE : E = f2r (S q_timeW) * / (f2r dt * f2r dt) + f2r (S q_posW) * (d * d)) by reflexivity. clearbody E. set (X1 := f2r (S q_timeW) * / (f2r dt * f2r dt)) in *. set (X2 := f2r (S q_posW) * (d * d)) in *.
  assert (Z1 : 0 <= X1) by (apply Rmult_le_pos; auto). assert (Z2 : 0 <= X2) by (apply Rmult_le_pos; auto). destruct u64_bounds as ((U0 & U1) & EU). destruct tiny_facts as (T0 & T1 & _).
  unfold cost_slack. set (a := f2r (S q_timeW)) in *. set (b := f2r (S q_posW)) in *. assert (E1 : bpow radix2 (-47) = 64 * u64) by (rewrite EU; change (-47)%Z with (6 + -53)%Z; rewrite bpow_plus; reflexivity). rewrite E1, EE.
  assert (TB : tiny <= / 1024 * bpow radix2 (-500)) by (change (/ 1024) with (bpow radix2 (-10)); rewrite <- bpow_plus; apply bpow_le; lia). set (B := bpow radix2 (-500)) in *.
  assert (AT : a * tiny <= / 1024 * (a * B)) by (assert (a * tiny <= a * (/ 1024 * B)) by (apply Rmult_le_compat_l; auto); lra). assert (BT : b * tiny <= / 1024 * (b * B)) by (assert (b * tiny <= b * (/ 1024 * B)) by (apply Rmult_le_compat_l; auto); lra).
  unfold near in N1, N2. apply Rabs_le_inv in N1. apply Rabs_le_inv in N2. assert (V1 : 0 <= u64 * X1) by (apply Rmult_le_pos; lra). assert (V2 : 0 <= u64 * X2) by (apply Rmult_le_pos; lra).
  assert (W1 : u64 * X1 <= / 1024 * X1) by (apply Rmult_le_compat_r; lra). assert (W2 : u64 * X2 <= / 1024 * X2) by (apply Rmult_le_compat_r; lra).
  assert (A0 : 0 <= a * tiny) by (apply Rmult_le_pos; lra). assert (B0 : 0 <= b * tiny) by (apply Rmult_le_pos; lra). pose proof eta64_pos as n0.
  assert (PQ : Rabs (p + q) <= 9 / 8 * (X1 + X2) + (2 * (a * tiny) + 2 * (b * tiny) + 2 * eta64)) by (apply Rabs_le; lra). pose proof (b64_near _ _ PQ) as NB. apply Rabs_le_inv in NB.
  set (m := 2 * (a * tiny) + 2 * (b * tiny) + 2 * eta64) in *. assert (M0 : 0 <= m) by (unfold m; lra). assert (UM : u64 * m <= 1 * m) by (apply Rmult_le_compat_r; lra).
  replace (u64 * (9 / 8 * (X1 + X2) + m)) with (9 / 8 * (u64 * X1) + 9 / 8 * (u64 * X2) + u64 * m) in NB by ring. apply Rabs_le. unfold m in *. lra.
Qed.
End Cost.
