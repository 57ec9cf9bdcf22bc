(** How close the weights are to the exact ones. *)
From Coq Require Import Reals ZArith Lra Lia List Bool Psatz.
From Flocq Require Import Core Relative Plus_error IEEE754.BinarySingleNaN.
From Verif Require Import Prelude UnicycleFoot GenPhases GenSpec Rounding RoundedGen RoundedGenSpec RoundedGenProofs2 RoundedGenProofs3 RoundedGenProofs4
  EvalTac Doubles DoublesSpec DoublesProofs DoublesProofs2 FeetTimesSpec CtrlDoubles CtrlDoublesSpec CtrlDoublesProofs NavDoublesProofs DcmWeights DcmWeightsSpec TrackDoublesProofs DcmWeightsProofs.
Import ListNotations.
Open Scope R_scope.

Lemma key_div : forall x y, fin x = true -> fin y = true -> 0 <= f2r x -> 0 < f2r y ->
  (fin (fdiv x y) = true /\ f2r (fdiv x y) = b64 (f2r x / f2r y)) \/ (fdiv x y = finf /\ 1 < f2r x / f2r y).
Proof.
  intros x y Fx Fy X Y. assert (Q0 : 0 <= f2r x / f2r y) by (apply Rmult_le_pos; [auto|left; apply Rinv_0_lt_compat; auto]).
  destruct (Rle_or_lt (f2r x / f2r y) top) as [L|L].
  - left. apply fdiv_ok; auto; [lra|]. rewrite Rabs_pos_eq; auto.
  - pose proof top1 as T1. destruct (fin (fdiv x y)) eqn:F.
    + left. split; auto. apply fdiv_fin; auto. lra.
    + right. split; [|lra]. pose proof (Bdiv_correct 53 1024 prec64 emax64 mode_NE x y) as Q. fold (fdiv x y) in Q. rewrite <- !b64_eq in Q.
      change (B2R x) with (f2r x) in Q. change (B2R y) with (f2r y) in Q. specialize (Q ltac:(lra)).
      destruct (Rlt_bool_spec (Rabs (b64 (f2r x / f2r y))) (bpow radix2 1024)) as [K|K].
      * destruct Q as (_ & Q2 & _). unfold fin in *. rewrite Q2, Fx in F. discriminate.
      * apply not_fin in Q. destruct Q as (_ & ->). unfold finf. f_equal.
        destruct (Bsign x) eqn:SX; [apply sign_true in SX|]. { exfalso. assert (Z : f2r x = 0) by lra. rewrite Z in L. unfold Rdiv in L. rewrite Rmult_0_l in L. lra. }
        destruct (Bsign y) eqn:SY; [apply sign_true in SY; lra|reflexivity].
Qed.
Lemma clip_fin : forall x, fin x = true -> f2r (w_min1 ieee (w_max0 ieee x)) = Rmin 1 (Rmax 0 (f2r x)).
Proof.
  intros x F. destruct f1_ok as (F1 & V1). assert (Z : fin fzero = true /\ f2r fzero = 0) by (split; reflexivity). destruct Z as (F0 & V0). unfold w_min1, w_max0. rewrite c0_zero, c1_one. cbn [a_lt ieee].
  rewrite (blt_ok _ _ F0 F), V0. rcases.
  - rewrite (blt_ok _ _ F F1), V1. rewrite Rmax_right by lra. rcases; [rewrite Rmin_right; lra|rewrite Rmin_left; lra].
  - rewrite (blt_ok _ _ F0 F1), V1, V0. rewrite Rmax_left by lra. rcases; [rewrite Rmin_right; lra|lra].
Qed.
Lemma near_share : forall n d, fin n = true -> fin d = true -> 0 <= f2r n -> 0 < f2r d ->
  Rabs (f2r (w_min1 ieee (w_max0 ieee (fsub f1 (fdiv n d)))) - Rmax 0 (1 - f2r n / f2r d)) <= bpow radix2 (-53).
Proof.
  intros n d Fn Fd Hn Hd. destruct f1_ok as (F1 & V1). assert (Q0 : 0 <= f2r n / f2r d) by (apply Rmult_le_pos; [auto|left; apply Rinv_0_lt_compat; auto]).
  pose proof (bpow_gt_0 radix2 (-53)) as P. destruct (key_div n d Fn Fd Hn Hd) as [(Fq & Vq)|(-> & G)].
  - assert (B0 : 0 <= f2r (fdiv n d)) by (rewrite Vq; apply (rnd_nonneg _ b64_rounding); auto).
    destruct (fsub_ok f1 (fdiv n d) F1 Fq) as (Fs & Vs).
    { rewrite V1. pose proof (le_top (fdiv n d)). pose proof top1. apply Rabs_le. lra. }
    rewrite clip_fin, Vs, V1 by exact Fs. set (q := f2r n / f2r d) in *. set (r := f2r (fdiv n d)) in *. destruct (Rle_or_lt q 1) as [L|L].
    + assert (E1 : Rabs (r - q) <= bpow radix2 (-54)) by (rewrite Vq; apply half_ulp; lra). assert (R1 : 0 <= r <= 1) by (rewrite Vq; apply b64_unit; lra).
      assert (E2 : Rabs (b64 (1 - r) - (1 - r)) <= bpow radix2 (-54)) by (apply half_ulp; lra). pose proof (b64_unit (1 - r) ltac:(lra)) as U.
      rewrite (Rmax_right 0 (b64 (1 - r))), Rmin_right, Rmax_right by lra. change (-53)%Z with (1 + -54)%Z. rewrite bpow_plus. change (bpow radix2 1) with 2. apply Rabs_le_inv in E1. apply Rabs_le_inv in E2. apply Rabs_le. lra.
    + assert (R1 : 1 <= r) by (rewrite Vq, <- (b64_fix 1 is_b64_1); apply (r_mono _ b64_rounding); lra). assert (B2 : b64 (1 - r) <= 0) by (apply b64_neg; lra).
      rewrite (Rmax_left 0 (b64 (1 - r))), Rmin_right, Rmax_left by lra. rewrite Rminus_diag_eq, Rabs_R0 by reflexivity. lra.
  - rewrite Rmax_left by lra. assert (E : f2r (w_min1 ieee (w_max0 ieee (fsub f1 finf))) = 0).
    { unfold w_max0. rewrite c0_zero. cbn [a_lt ieee]. replace (Bltb fzero (fsub f1 finf)) with false by (vm_compute; reflexivity). unfold w_min1. rewrite c1_one. cbn [a_lt ieee]. replace (Bltb fzero f1) with true by (vm_compute; reflexivity). reflexivity. }
    rewrite E, Rminus_diag_eq, Rabs_R0 by reflexivity. lra.
Qed.

(** ** Distances *)
Section Norm.
Variables (sq c s : f64 -> f64) (at2 : f64 -> f64 -> f64).
Let M := ieee_maths sq c s at2.
Let e := bpow radix2 (-530).

Lemma diff_ok : forall x y, fin x = true -> fin y = true -> Rabs (f2r x) <= bpow radix2 500 -> Rabs (f2r y) <= bpow radix2 500 ->
  fin (fsub x y) = true /\ exists d, Rabs d <= u64 /\ f2r (fsub x y) = (f2r x - f2r y) * (1 + d) /\ Rabs (f2r (fsub x y)) <= bpow radix2 502.
Proof.
  intros x y Fx Fy Hx Hy. assert (Ht : Rabs (f2r x - f2r y) <= bpow radix2 501).
  { replace (bpow radix2 501) with (2 * bpow radix2 500) by (change 501%Z with (1 + 500)%Z; rewrite bpow_plus; reflexivity). apply Rabs_le_inv in Hx. apply Rabs_le_inv in Hy. apply Rabs_le. lra. }
  destruct (fsub_ok x y Fx Fy) as (F & V). { eapply Rle_trans; [exact Ht|]. eapply Rle_trans; [|apply pow_top]. apply bpow_le. lia. }
  destruct (sub_rel (f2r x) (f2r y) (f2r_b64 x) (f2r_b64 y)) as (d & D & E). split; auto. exists d. split; auto. rewrite V. split; [exact E|].
  apply b64_abs; [apply b64_fix; apply generic_format_bpow; unfold b64_exp, FLT_exp; lia|]. eapply Rle_trans; [exact Ht|]. apply bpow_le. lia.
Qed.
Lemma square_near : forall X d, Rabs d <= u64 -> forall x, X = x * (1 + d) -> Rabs (b64 (X * X) - x * x) <= 4 * u64 * (x * x) + eta64.
Proof.
  intros X d D x ->. set (t := x * x). assert (T : 0 <= t) by apply Rle_0_sqr. assert (U : 0 <= u64 <= / 9007199254740992) by (rewrite u64_val; lra). apply Rabs_le_inv in D.
  assert (Q : Rabs (x * (1 + d) * (x * (1 + d)) - t) <= 5 / 2 * u64 * t).
  { replace (x * (1 + d) * (x * (1 + d)) - t) with ((2 * d + d * d) * t) by (unfold t; ring). rewrite Rabs_mult, (Rabs_pos_eq t T). apply Rmult_le_compat_r; auto. apply Rabs_le. nra. }
  apply Rabs_le_inv in Q. assert (Ut : 0 <= u64 * t <= / 9007199254740992 * t) by (split; [apply Rmult_le_pos; lra|apply Rmult_le_compat_r; lra]).
  set (y := x * (1 + d) * (x * (1 + d))) in *. assert (Y : 0 <= y) by apply Rle_0_sqr.
  assert (N1 : Rabs (b64 y - y) <= u64 * (5 / 4 * t) + eta64) by (apply b64_near; rewrite Rabs_pos_eq; lra). apply Rabs_le_inv in N1. apply Rabs_le. lra.
Qed.
Lemma norm_ok : forall a b, placed a -> placed b -> let r := w_norm ieee M (w_sub ieee a b) in
  fin r = true /\ 0 <= f2r r /\ Rabs (f2r r - dist a b) <= 8 * u64 * dist a b + 4 * e.
Proof.
  intros (a1 & a2) (b1 & b2) (A1 & A2 & A3 & A4) (B1 & B2 & B3 & B4) r. cbn [fst snd] in *. subst r. unfold w_norm, w_sub. cbn [fst snd a_sub a_add a_mul ieee x_sqrt M ieee_maths].
  destruct (diff_ok a1 b1 A1 B1 A3 B3) as (FX & d1 & D1 & VX & BX). destruct (diff_ok a2 b2 A2 B2 A4 B4) as (FY & d2 & D2 & VY & BY).
  set (X := fsub a1 b1) in *. set (Y := fsub a2 b2) in *. unfold dist. cbn [fst snd]. set (x := f2r a1 - f2r b1) in *. set (y := f2r a2 - f2r b2) in *.
  pose proof (square_near (f2r X) d1 D1 x VX) as PX. pose proof (square_near (f2r Y) d2 D2 y VY) as PY.
  assert (Sq : forall Z, Rabs Z <= bpow radix2 502 -> Rabs (Z * Z) <= bpow radix2 1004). { intros Z HZ. rewrite Rabs_mult. change 1004%Z with (502 + 502)%Z. rewrite bpow_plus. apply Rmult_le_compat; auto; apply Rabs_pos. }
  assert (Tp : bpow radix2 1006 <= top) by (eapply Rle_trans; [|apply pow_top]; apply bpow_le; lia).
  assert (P4 : bpow radix2 1006 = 4 * bpow radix2 1004) by (change 1006%Z with (2 + 1004)%Z; rewrite bpow_plus; reflexivity). pose proof (bpow_gt_0 radix2 1004) as P0.
  destruct (fmul_ok X X FX FX) as (F1 & V1); [specialize (Sq _ BX); lra|]. destruct (fmul_ok Y Y FY FY) as (F2 & V2); [specialize (Sq _ BY); lra|].
  assert (Rg : forall Z, Rabs Z <= bpow radix2 502 -> 0 <= b64 (Z * Z) <= bpow radix2 1004).
  { intros Z HZ. split; [apply (rnd_nonneg _ b64_rounding), Rle_0_sqr|]. rewrite <- (b64_fix (bpow radix2 1004)) by (apply generic_format_bpow; unfold b64_exp, FLT_exp; lia). apply (r_mono _ b64_rounding). specialize (Sq Z HZ). apply Rabs_le_inv in Sq. lra. }
  pose proof (Rg _ BX) as RX. pose proof (Rg _ BY) as RY. rewrite <- V1 in RX, PX. rewrite <- V2 in RY, PY. set (p := f2r (fmul X X)) in *. set (q := f2r (fmul Y Y)) in *.
  destruct (fadd_ok _ _ F1 F2) as (Fs & Vs); [fold p q; rewrite Rabs_pos_eq; lra|]. fold p q in Vs.
  set (t := x * x + y * y) in *. assert (T1 : 0 <= x * x) by apply Rle_0_sqr. assert (T2 : 0 <= y * y) by apply Rle_0_sqr. assert (T : 0 <= t) by (unfold t; lra).
  assert (U : 0 <= u64 <= / 9007199254740992) by (rewrite u64_val; lra). pose proof eta64_pos as n0.
  assert (Ut : 0 <= u64 * t <= / 9007199254740992 * t) by (split; [apply Rmult_le_pos; lra|apply Rmult_le_compat_r; lra]).
  apply Rabs_le_inv in PX. apply Rabs_le_inv in PY. assert (Et : u64 * t = u64 * (x * x) + u64 * (y * y)) by (unfold t; ring).
  assert (S0 : 0 <= f2r (fadd (fmul X X) (fmul Y Y))) by (rewrite Vs; apply (rnd_nonneg _ b64_rounding); lra).
  assert (Us : u64 * (2 * eta64) <= eta64) by (assert (u64 * (2 * eta64) <= / 2 * (2 * eta64)) by (apply Rmult_le_compat_r; lra); lra).
  assert (N2 : Rabs (b64 (p + q) - (p + q)) <= u64 * (5 / 4 * t + 2 * eta64) + eta64) by (apply b64_near; rewrite Rabs_pos_eq; [|lra]; unfold t in *; lra).
  rewrite <- Vs in N2. set (v := f2r (fadd (fmul X X) (fmul Y Y))) in *. apply Rabs_le_inv in N2.
  destruct (fsqrt_ok _ Fs S0) as (Fr & Vr). fold v in Vr. split; [exact Fr|]. split; [rewrite Vr; apply (rnd_nonneg _ b64_rounding), sqrt_pos|].
  set (D := sqrt t) in *. assert (D0 : 0 <= D) by apply sqrt_pos. assert (DD : D * D = t) by (apply sqrt_def; auto).
  destruct small_powers as (e0 & e1 & e2 & _). fold e in e0, e1, e2.
  assert (N3 : Rabs (sqrt v - D) <= 6 * u64 * D + 2 * e).
  { apply (sqrt_near D v (sqrt v) (6 * u64) (2 * e) (4 * eta64)); auto; try lra; [apply sqrt_pos|apply sqrt_def; auto|]. rewrite DD. apply Rabs_le. unfold t in *. lra. }
  apply Rabs_le_inv in N3. set (g := sqrt v) in *. assert (g0 : 0 <= g) by apply sqrt_pos.
  assert (UD : 0 <= u64 * D <= / 9007199254740992 * D) by (split; [apply Rmult_le_pos; lra|apply Rmult_le_compat_r; lra]).
  assert (Ue : u64 * (2 * e) <= e) by (assert (u64 * (2 * e) <= / 2 * (2 * e)) by (apply Rmult_le_compat_r; lra); lra).
  assert (N4 : Rabs (b64 g - g) <= u64 * (5 / 4 * D + 2 * e) + eta64) by (apply b64_near; rewrite Rabs_pos_eq; lra). apply Rabs_le_inv in N4. rewrite Vr. apply Rabs_le. lra.
Qed.
Lemma max_lip : forall x y z, Rabs (x - y) <= z -> Rabs (Rmax 0 x - Rmax 0 y) <= z.
Proof. intros x y z H. apply Rabs_le_inv in H. apply Rabs_le. unfold Rmax. destruct (Rle_dec 0 x), (Rle_dec 0 y); lra. Qed.
Lemma share_near : forall zl zr z, placed zl -> placed zr -> placed z -> bpow radix2 (-470) <= dist zr zl ->
  Rabs (f2r (w_share ieee M zl zr z) - exact_share zl zr z) <= bpow radix2 (-47).
Proof.
  intros zl zr z PL PR PZ HD. destruct (norm_ok z zl PZ PL) as (Fn & Hn & Nn). destruct (norm_ok zr zl PR PL) as (Fd & Hd & Nd). unfold w_share. rewrite c1_one. cbn [a_sub a_div ieee].
  set (n := w_norm ieee M (w_sub ieee z zl)) in *. set (d := w_norm ieee M (w_sub ieee zr zl)) in *. unfold exact_share. assert (N0 : 0 <= dist z zl) by apply sqrt_pos. set (en := dist z zl) in *. set (ed := dist zr zl) in *.
  assert (U : 0 < u64 <= / 9007199254740992) by (rewrite u64_val; lra).
  assert (E1 : 4 * e <= u64 * bpow radix2 (-470)). { unfold e, u64. assert (A : / 2 = bpow radix2 (-1)) by reflexivity. change 4 with (bpow radix2 2). rewrite ?A. rewrite <- !bpow_plus. apply bpow_le. lia. }
  assert (E2 : u64 * bpow radix2 (-470) <= u64 * ed) by (apply Rmult_le_compat_l; lra). pose proof (bpow_gt_0 radix2 (-470)) as P.
  assert (Ud : 0 <= u64 * ed <= / 9007199254740992 * ed) by (split; [apply Rmult_le_pos; lra|apply Rmult_le_compat_r; lra]).
  assert (Un : 0 <= u64 * en <= / 9007199254740992 * en) by (split; [apply Rmult_le_pos; lra|apply Rmult_le_compat_r; lra]).
  apply Rabs_le_inv in Nn. apply Rabs_le_inv in Nd. assert (Hd2 : 0 < f2r d) by lra.
  pose proof (near_share n d Fn Fd Hn Hd2) as K. set (w := f2r (w_min1 ieee (w_max0 ieee (fsub f1 (fdiv n d))))) in *.
  assert (Id : 0 < / f2r d) by (apply Rinv_0_lt_compat; auto). assert (Ie : 0 < / ed) by (apply Rinv_0_lt_compat; lra).
  destruct (Rle_or_lt en (2 * ed)) as [L|L].
  - assert (C : Rabs (f2r n / f2r d - en / ed) <= 36 * u64).
    { replace (f2r n / f2r d - en / ed) with ((f2r n * ed - en * f2r d) * (/ f2r d * / ed)) by (field; lra). rewrite Rabs_mult, (Rabs_pos_eq (/ f2r d * / ed)) by (apply Rmult_le_pos; lra).
      apply Rle_trans with (36 * u64 * (f2r d * ed) * (/ f2r d * / ed)); [apply Rmult_le_compat_r; [apply Rmult_le_pos; lra|]|right; field; lra].
      replace (f2r n * ed - en * f2r d) with ((f2r n - en) * ed - en * (f2r d - ed)) by ring.
      assert (Q1 : Rabs ((f2r n - en) * ed) <= 17 * (u64 * ed) * ed). { rewrite Rabs_mult, (Rabs_pos_eq ed) by lra. apply Rmult_le_compat_r; [lra|]. assert (u64 * en <= u64 * (2 * ed)) by (apply Rmult_le_compat_l; lra). apply Rabs_le. lra. }
      assert (Q2 : Rabs (en * (f2r d - ed)) <= 2 * ed * (9 * (u64 * ed))).
      { rewrite Rabs_mult, (Rabs_pos_eq en) by lra. apply Rle_trans with (2 * ed * Rabs (f2r d - ed)); [apply Rmult_le_compat_r; [apply Rabs_pos|lra]|]. apply Rmult_le_compat_l; [lra|]. apply Rabs_le. lra. }
      apply Rabs_le_inv in Q1. apply Rabs_le_inv in Q2. assert (Q3 : (u64 * ed) * (ed * (1 - 9 * / 9007199254740992)) <= (u64 * ed) * f2r d) by (apply Rmult_le_compat_l; lra).
      assert (Q4 : 0 <= u64 * ed * ed) by (apply Rmult_le_pos; lra). apply Rabs_le. lra. }
    assert (C2 : Rabs (Rmax 0 (1 - f2r n / f2r d) - Rmax 0 (1 - en / ed)) <= 36 * u64) by (apply max_lip; replace (1 - f2r n / f2r d - (1 - en / ed)) with (- (f2r n / f2r d - en / ed)) by ring; rewrite Rabs_Ropp; exact C).
    change (bpow radix2 (-53)) with (/ 9007199254740992) in K. change (bpow radix2 (-47)) with (/ 140737488355328). apply Rabs_le_inv in K. apply Rabs_le_inv in C2. apply Rabs_le. lra.
  - assert (G1 : 1 <= f2r n / f2r d). { apply Rmult_le_reg_r with (f2r d); auto. unfold Rdiv. rewrite Rmult_assoc, Rinv_l by lra. lra. }
    assert (G2 : 1 <= en / ed). { apply Rmult_le_reg_r with ed; [lra|]. unfold Rdiv. rewrite Rmult_assoc, Rinv_l by lra. lra. }
    rewrite (Rmax_left 0 (1 - f2r n / f2r d)) in K by lra. rewrite Rmax_left by lra. eapply Rle_trans; [exact K|]. apply bpow_le. lia.
Qed.
End Norm.
