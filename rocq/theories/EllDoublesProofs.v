(** Rounding in the ellipse. *)
From Coq Require Import Reals ZArith List Bool Lia Lra.
From Flocq Require Import Core IEEE754.BinarySingleNaN.
From Verif Require Import Prelude Ellipse Rounding RoundedGen RoundedGenProofs2 RoundedGenProofs3 EvalTac Doubles DoublesSpec DoublesProofs CtrlDoubles CtrlDoublesProofs StepDoubles StepDoublesSpec StepDoublesProofs StepDoublesProofs5
  EllDoubles EllDoublesSpec.
Import ListNotations.
Open Scope R_scope.

(** [x] is [X] up to [k] units of the last place of [W]. *)
Definition off (k W x X : R) : Prop := Rabs (x - X) <= k * (u64 * W).
Lemma off_size : forall k W x X, 0 <= k <= 40 -> 0 <= W -> Rabs X <= W -> off k W x X -> Rabs x <= W + k * (u64 * W) /\ Rabs x <= 2 * W.
Proof.
  intros k W x X K HW B H. unfold off in H. destruct u64_bounds as ((U0 & U1) & _). assert (P : 0 <= u64 * W) by (apply Rmult_le_pos; lra). assert (u64 * W <= / 9007199254740992 * W) by (apply Rmult_le_compat_r; lra).
  assert (k * (u64 * W) <= 40 * (u64 * W)) by (apply Rmult_le_compat_r; lra). replace x with ((x - X) + X) by ring. pose proof (Rabs_triang (x - X) X). lra.
Qed.
Lemma near_prod : forall p q P Q x X y Y, 0 <= p <= 40 -> 0 <= q <= 40 -> 0 <= P -> 0 <= Q -> Rabs X <= P -> Rabs Y <= Q -> off p P x X -> off q Q y Y ->
  Rabs (b64 (x * y) - X * Y) <= (p + q + 9 / 8) * (u64 * (P * Q)) + eta64 /\ Rabs (x * y) <= 4 * (P * Q).
Proof.
  intros p q P Q x X y Y Hp Hq HP HQ BX BY HX HY. pose proof (off_size p P x X Hp HP BX HX) as (_ & SX). pose proof (off_size q Q y Y Hq HQ BY HY) as (_ & SY). unfold off in *. destruct u64_bounds as ((U0 & U1) & _).
  assert (PQ : 0 <= P * Q) by (apply Rmult_le_pos; auto). set (w := u64 * (P * Q)). assert (W0 : 0 <= w) by (apply Rmult_le_pos; lra).
  assert (U2 : u64 * w <= / 9007199254740992 * w) by (apply Rmult_le_compat_r; lra).
  assert (A1 : Rabs (X * (y - Y)) <= q * w). { rewrite Rabs_mult. replace (q * w) with (P * (q * (u64 * Q))) by (unfold w; ring). apply Rmult_le_compat; auto; apply Rabs_pos. }
  assert (A2 : Rabs ((x - X) * Y) <= p * w). { rewrite Rabs_mult. replace (p * w) with (p * (u64 * P) * Q) by (unfold w; ring). apply Rmult_le_compat; auto; apply Rabs_pos. }
  assert (A3 : Rabs ((x - X) * (y - Y)) <= / 1024 * w).
  { rewrite Rabs_mult. apply Rle_trans with (p * (u64 * P) * (q * (u64 * Q))); [apply Rmult_le_compat; auto; apply Rabs_pos|]. replace (p * (u64 * P) * (q * (u64 * Q))) with (p * q * (u64 * w)) by (unfold w; ring).
    assert (p * q <= 40 * 40) by (apply Rmult_le_compat; lra). assert (0 <= u64 * w) by (apply Rmult_le_pos; lra). assert (p * q * (u64 * w) <= 40 * 40 * (u64 * w)) by (apply Rmult_le_compat_r; lra). lra. }
  assert (D : Rabs (x * y - X * Y) <= (p + q + / 1024) * w).
  { replace (x * y - X * Y) with (X * (y - Y) + (x - X) * Y + (x - X) * (y - Y)) by ring. pose proof (Rabs_triang (X * (y - Y) + (x - X) * Y) ((x - X) * (y - Y))). pose proof (Rabs_triang (X * (y - Y)) ((x - X) * Y)). lra. }
  assert (BXY : Rabs (X * Y) <= P * Q) by (rewrite Rabs_mult; apply Rmult_le_compat; auto; apply Rabs_pos).
  assert (Z : Rabs (x * y) <= P * Q + (p + q + / 1024) * w) by (replace (x * y) with ((x * y - X * Y) + X * Y) by ring; pose proof (Rabs_triang (x * y - X * Y) (X * Y)); lra).
  pose proof (b64_near (x * y) _ Z) as N. assert (T1 : (p + q + / 1024) * (u64 * w) <= 81 * (u64 * w)) by (apply Rmult_le_compat_r; [apply Rmult_le_pos; lra|lra]).
  replace (u64 * (P * Q + (p + q + / 1024) * w)) with (w + (p + q + / 1024) * (u64 * w)) in N by (unfold w; ring).
  split.
  - replace (b64 (x * y) - X * Y) with ((b64 (x * y) - x * y) + (x * y - X * Y)) by ring. pose proof (Rabs_triang (b64 (x * y) - x * y) (x * y - X * Y)). lra.
  - rewrite Rabs_mult. replace (4 * (P * Q)) with (2 * P * (2 * Q)) by ring. apply Rmult_le_compat; auto; apply Rabs_pos.
Qed.
Lemma near_sum : forall k W x X y Y E, 0 <= k <= 40 -> 0 <= W -> 0 <= E -> Rabs (X + Y) <= W -> Rabs (x - X + (y - Y)) <= k * (u64 * W) + E ->
  Rabs (b64 (x + y) - (X + Y)) <= (k + 9 / 8) * (u64 * W) + 2 * E + eta64 /\ Rabs (x + y) <= 2 * W + E.
Proof.
  intros k W x X y Y E K HW HE B H. destruct u64_bounds as ((U0 & U1) & _). set (w := u64 * W) in *. assert (W0 : 0 <= w) by (apply Rmult_le_pos; lra). assert (WW : w <= / 9007199254740992 * W) by (apply Rmult_le_compat_r; lra).
  assert (KW : k * w <= 40 * w) by (apply Rmult_le_compat_r; lra). assert (Z : Rabs (x + y) <= W + k * w + E) by (replace (x + y) with ((x - X + (y - Y)) + (X + Y)) by ring; pose proof (Rabs_triang (x - X + (y - Y)) (X + Y)); lra).
  pose proof (b64_near _ _ Z) as N. replace (u64 * (W + k * w + E)) with (w + k * (u64 * w) + u64 * E) in N by (unfold w; ring).
  assert (k * (u64 * w) <= 40 * (u64 * w)) by (apply Rmult_le_compat_r; [apply Rmult_le_pos; lra|lra]). assert (u64 * w <= / 9007199254740992 * w) by (apply Rmult_le_compat_r; lra). assert (u64 * E <= / 9007199254740992 * E) by (apply Rmult_le_compat_r; lra).
  split; [|lra]. replace (b64 (x + y) - (X + Y)) with ((b64 (x + y) - (x + y)) + (x - X + (y - Y))) by ring. pose proof (Rabs_triang (b64 (x + y) - (x + y)) (x - X + (y - Y))). lra.
Qed.
Lemma eta_below : forall W, bpow radix2 (-900) <= W -> eta64 <= / 1024 * (u64 * W).
Proof.
  intros W H. destruct u64_bounds as ((U0 & _) & EU). apply Rle_trans with (/ 1024 * (u64 * bpow radix2 (-900))).
  - rewrite EU. unfold eta64. change (/ 1024) with (bpow radix2 (-10)). rewrite <- !bpow_plus. change (/ 2) with (bpow radix2 (-1)). rewrite <- bpow_plus. apply bpow_le. lia.
  - apply Rmult_le_compat_l; [lra|]. apply Rmult_le_compat_l; lra.
Qed.
Lemma near_prod' : forall p q P Q x X y Y, 0 <= p <= 40 -> 0 <= q <= 40 -> 0 <= P -> 0 <= Q -> Rabs X <= P -> Rabs Y <= Q -> off p P x X -> off q Q y Y -> bpow radix2 (-900) <= P * Q ->
  off (p + q + 5 / 4) (P * Q) (b64 (x * y)) (X * Y) /\ Rabs (x * y) <= 4 * (P * Q).
Proof.
  intros p q P Q x X y Y Hp Hq HP HQ BX BY HX HY L. destruct (near_prod p q P Q x X y Y Hp Hq HP HQ BX BY HX HY) as (A & B). split; auto. unfold off. pose proof (eta_below _ L). pose proof (bpow_gt_0 radix2 (-900)).
  destruct u64_bounds as ((U0 & _) & _). assert (0 <= u64 * (P * Q)) by (apply Rmult_le_pos; lra). lra.
Qed.
Lemma big_fin : forall x, Rabs x <= bpow radix2 1000 -> Rabs x <= top.
Proof. intros x H. pose proof pow_top. pose proof (bpow_le radix2 1000 1023 ltac:(lia)). lra. Qed.

Section Ellipse.
Variables (sq cosf sinf : f64 -> f64) (at2 : f64 -> f64 -> f64).
Let M := ieee_maths sq cosf sinf at2.
Hypothesis trig : close_trig cosf sinf.
Variables a b th cx cy : f64.
Hypothesis Ha : axis64 a.
Hypothesis Hb : axis64 b.
Hypothesis Fth : fin th = true.
Notation A := (f2r a). Notation B := (f2r b). Notation C := (cos (f2r th)). Notation T := (sin (f2r th)).

Lemma axis_range : forall x, axis64 x -> bpow radix2 (-34) <= f2r x <= bpow radix2 100.
Proof.
  intros x (F & L & U). split; auto. assert (Fq : fin (a_q ieee 1 10000000000) = true) by (vm_compute; reflexivity). rewrite blt_ok in L by auto. rcasesh L; [discriminate|].
  assert (bpow radix2 (-34) <= f2r (a_q ieee 1 10000000000)). { assert (K : Bleb (fmake 1 (-34)) (a_q ieee 1 10000000000) = true) by (vm_compute; reflexivity). rewrite ble_ok in K; auto. rcasesh K; [|discriminate]. 
    assert (f2r (fmake 1 (-34)) = bpow radix2 (-34)). { destruct (fmake_ok 1 (-34)) as (_ & V). - unfold F2R. cbn [Fnum Fexp]. rewrite Rmult_1_l, Rabs_pos_eq by apply bpow_ge_0. pose proof pow_top. pose proof (bpow_le radix2 (-34) 1023 ltac:(lia)). lra.
      - rewrite V. unfold F2R. cbn [Fnum Fexp]. rewrite b64_fix by (apply is_b64_dyadic; lia). lra. } lra. }
  lra.
Qed.
Lemma product_range : bpow radix2 (-68) <= A * B <= bpow radix2 200.
Proof.
  destruct (axis_range a Ha) as (A1 & A2). destruct (axis_range b Hb) as (B1 & B2). pose proof (bpow_gt_0 radix2 (-34)). change (-68)%Z with (-34 + -34)%Z. change 200%Z with (100 + 100)%Z. rewrite !bpow_plus.
  split; apply Rmult_le_compat; lra.
Qed.
Lemma pos_A : 0 < A. Proof. destruct (axis_range a Ha). pose proof (bpow_gt_0 radix2 (-34)). lra. Qed.
Lemma pos_B : 0 < B. Proof. destruct (axis_range b Hb). pose proof (bpow_gt_0 radix2 (-34)). lra. Qed.

(** A product with zero does not matter in a sum. *)
Lemma plus_zero : forall x y, fin x = true -> fin y = true -> Rabs (f2r x) <= bpow radix2 1000 -> f2r y = 0 -> (fin (fadd x y) = true /\ f2r (fadd x y) = f2r x) /\ (fin (fadd y x) = true /\ f2r (fadd y x) = f2r x).
Proof.
  intros x y Fx Fy L Z. split.
  - destruct (fadd_ok x y Fx Fy) as (F & V); [rewrite Z, Rplus_0_r; apply big_fin; auto|]. split; auto. rewrite V, Z, Rplus_0_r. apply b64_fix. apply f2r_b64.
  - destruct (fadd_ok y x Fy Fx) as (F & V); [rewrite Z, Rplus_0_l; apply big_fin; auto|]. split; auto. rewrite V, Z, Rplus_0_l. apply b64_fix. apply f2r_b64.
Qed.
Lemma times_zero : forall x, fin x = true -> fin (fmul x fzero) = true /\ f2r (fmul x fzero) = 0.
Proof. intros x F. destruct (fmul_ok x fzero F eq_refl) as (G & V); [change (f2r fzero) with 0; rewrite Rmult_0_r, Rabs_R0; pose proof pow_top; pose proof (bpow_ge_0 radix2 1023); lra|]. split; auto. rewrite V. change (f2r fzero) with 0. rewrite Rmult_0_r. apply b64_fix. apply (is_b64_int 0). lia. Qed.
(** An entry of the matrix. *)
Lemma entry : forall k x K z, fin k = true -> axis64 x -> fin z = true -> f2r z = 0 -> Rabs (f2r k - K) <= 2 * u64 -> Rabs K <= 1 ->
  forall y, y = fadd (fmul k x) z \/ y = fadd z (fmul k x) -> fin y = true /\ off (13 / 4) (f2r x) (f2r y) (K * f2r x).
Proof.
  intros k x K z Fk Hx Fz Z H HK y Y. destruct (axis_range x Hx) as (X1 & X2). destruct Hx as (Fx & _). pose proof (bpow_gt_0 radix2 (-34)). destruct u64_bounds as ((U0 & U1) & _).
  destruct (near_prod' 2 0 1 (f2r x) (f2r k) K (f2r x) (f2r x)) as (P1 & P2); try lra.
  - rewrite Rabs_pos_eq; lra.
  - unfold off. rewrite Rmult_1_r. exact H.
  - unfold off. replace (f2r x - f2r x) with 0 by ring. rewrite Rabs_R0. lra.
  - rewrite Rmult_1_l. apply Rle_trans with (bpow radix2 (-34)); [apply bpow_le; lia|exact X1].
  - rewrite Rmult_1_l in *. replace (2 + 0 + 5 / 4) with (13 / 4) in P1 by lra.
    assert (L : 4 * f2r x <= bpow radix2 900) by (apply Rle_trans with (4 * bpow radix2 100); [lra|]; change 4 with (bpow radix2 2); rewrite <- bpow_plus; apply bpow_le; lia).
    destruct (fmul_ok k x Fk Fx) as (Fm & Vm). { apply big_fin. pose proof (bpow_le radix2 900 1000 ltac:(lia)). lra. }
    assert (S : Rabs (f2r (fmul k x)) <= bpow radix2 1000).
    { rewrite Vm. destruct (off_size (13 / 4) (f2r x) (b64 (f2r k * f2r x)) (K * f2r x)) as (_ & G); try lra; auto; [rewrite Rabs_mult, (Rabs_pos_eq (f2r x)) by lra; rewrite <- (Rmult_1_l (f2r x)) at 2; apply Rmult_le_compat_r; lra|]. pose proof (bpow_le radix2 900 1000 ltac:(lia)). lra. }
    destruct (plus_zero _ _ Fm Fz S Z) as ((G1 & G2) & (G3 & G4)). destruct Y as [-> | ->]; (split; [assumption|]); [rewrite G2|rewrite G4]; rewrite Vm; exact P1.
Qed.
(** The matrix and its inverse. *)
Lemma image_near : exists p q r t, z_image ieee M a b th = ((p, q), (r, t)) /\ (fin p = true /\ fin q = true /\ fin r = true /\ fin t = true) /\
  off (13 / 4) A (f2r p) (C * A) /\ off (13 / 4) B (f2r q) (- T * B) /\ off (13 / 4) A (f2r r) (T * A) /\ off (13 / 4) B (f2r t) (C * B).
Proof.
  destruct (proj1 (trig th) Fth) as (Fc & Fs & _). destruct (trig_ok cosf sinf trig th (or_introl Fc)) as (_ & H1 & H2 & H3). assert (Fo : fin (fopp (sinf th)) = true) by (rewrite fopp_parts; exact Fs).
  pose proof (cos_abs (f2r th)) as B1. pose proof (sin_abs (f2r th)) as B2. assert (B3 : Rabs (- T) <= 1) by (rewrite Rabs_Ropp; exact B2).
  destruct (times_zero _ Fc) as (Zc & Vc). destruct (times_zero _ Fs) as (Zs & Vs). destruct (times_zero _ Fo) as (Zo & Vo).
  unfold z_image. rewrite c0_zero. cbn [a_add a_mul ieee x_cos x_sin x_opp M ieee_maths]. do 4 eexists. split; [reflexivity|].
  destruct (entry (cosf th) a C (fmul (fopp (sinf th)) fzero) Fc Ha Zo Vo H1 B1 _ (or_introl eq_refl)) as (E1 & F1).
  destruct (entry (fopp (sinf th)) b (- T) (fmul (cosf th) fzero) Fo Hb Zc Vc H3 B3 _ (or_intror eq_refl)) as (E2 & F2).
  destruct (entry (sinf th) a T (fmul (cosf th) fzero) Fs Ha Zc Vc H2 B2 _ (or_introl eq_refl)) as (E3 & F3).
  destruct (entry (cosf th) b C (fmul (sinf th) fzero) Fc Hb Zs Vs H1 B1 _ (or_intror eq_refl)) as (E4 & F4).
  repeat split; assumption.
Qed.
Lemma size1 : forall K x, Rabs K <= 1 -> 0 <= x -> Rabs (K * x) <= x.
Proof. intros K x H X. rewrite Rabs_mult, (Rabs_pos_eq x) by auto. rewrite <- (Rmult_1_l x) at 2. apply Rmult_le_compat_r; auto. Qed.
Lemma inverse_off : forall p q r t, (fin p = true /\ fin q = true /\ fin r = true /\ fin t = true) ->
  off (13 / 4) A (f2r p) (C * A) -> off (13 / 4) B (f2r q) (- T * B) -> off (13 / 4) A (f2r r) (T * A) -> off (13 / 4) B (f2r t) (C * B) ->
  let inv := fdiv f1 (fsub (fmul p t) (fmul r q)) in fin inv = true /\ off 19 (/ (A * B)) (f2r inv) (/ (A * B)).
Proof.
  intros p q r t (Fp & Fq & Fr & Ft) Hp Hq Hr Ht inv. pose proof pos_A as PA. pose proof pos_B as PB. destruct product_range as (D1 & D2). pose proof (cos_abs (f2r th)) as B1. pose proof (sin_abs (f2r th)) as B2. assert (B3 : Rabs (- T) <= 1) by (rewrite Rabs_Ropp; exact B2).
  destruct u64_bounds as ((U0 & U1) & _). assert (L9 : bpow radix2 (-900) <= A * B) by (apply Rle_trans with (bpow radix2 (-68)); [apply bpow_le; lia|exact D1]).
  destruct (near_prod' (13/4) (13/4) A B (f2r p) (C * A) (f2r t) (C * B)) as (P1 & P2); try lra; auto; try (apply size1; lra).
  destruct (near_prod' (13/4) (13/4) A B (f2r r) (T * A) (f2r q) (- T * B)) as (P3 & P4); try lra; auto; try (apply size1; lra).
  set (W := A * B) in *. assert (W0 : 0 < W) by (apply Rmult_lt_0_compat; auto). assert (L : 4 * W <= bpow radix2 1000) by (apply Rle_trans with (4 * bpow radix2 200); [lra|]; change 4 with (bpow radix2 2); rewrite <- bpow_plus; apply bpow_le; lia).
  destruct (fmul_ok p t Fp Ft) as (F1 & V1); [apply big_fin; lra|]. destruct (fmul_ok r q Fr Fq) as (F2 & V2); [apply big_fin; lra|]. unfold off in P1, P3. rewrite <- V1 in P1. rewrite <- V2 in P3.
  set (x := f2r (fmul p t)) in *. set (y := f2r (fmul r q)) in *. assert (uW : 0 <= u64 * W) by (apply Rmult_le_pos; lra). assert (uW2 : u64 * W <= / 9007199254740992 * W) by (apply Rmult_le_compat_r; lra).
  assert (E1 : C * A * (C * B) - T * A * (- T * B) = W). { unfold W. replace (C * A * (C * B) - T * A * (- T * B)) with ((T * T + C * C) * (A * B)) by ring. pose proof (sin2_cos2 (f2r th)) as Q. unfold Rsqr in Q. rewrite Q. ring. }
  assert (D : Rabs (x - y - W) <= 31 / 2 * (u64 * W)).
  { replace (x - y - W) with ((x - C * A * (C * B)) + - (y - T * A * (- T * B))) by (rewrite <- E1; ring). pose proof (Rabs_triang (x - C * A * (C * B)) (- (y - T * A * (- T * B)))). rewrite Rabs_Ropp in H. lra. }
  assert (Z : Rabs (x - y) <= 2 * W) by (replace (x - y) with ((x - y - W) + W) by ring; pose proof (Rabs_triang (x - y - W) W); rewrite (Rabs_pos_eq W) in H by lra; lra).
  assert (Z' : Rabs (x - y) <= W + 31 / 2 * (u64 * W)) by (replace (x - y) with ((x - y - W) + W) by ring; pose proof (Rabs_triang (x - y - W) W); rewrite (Rabs_pos_eq W) in H by lra; lra).
  destruct (fsub_ok _ _ F1 F2) as (F3 & V3); [apply big_fin; fold x y; lra|]. fold x y in V3. set (d := f2r (fsub (fmul p t) (fmul r q))) in *.
  pose proof (b64_near _ _ Z') as N. rewrite <- V3 in N. pose proof (eta_below W L9) as EW. replace (u64 * (W + 31 / 2 * (u64 * W))) with (u64 * W + 31 / 2 * (u64 * (u64 * W))) in N by ring.
  assert (uu : u64 * (u64 * W) <= / 9007199254740992 * (u64 * W)) by (apply Rmult_le_compat_r; lra).
  assert (DD : Rabs (d - W) <= 17 * (u64 * W)) by (replace (d - W) with ((d - (x - y)) + (x - y - W)) by ring; pose proof (Rabs_triang (d - (x - y)) (x - y - W)); lra).
  apply Rabs_le_inv in DD. assert (d0 : / 2 * W <= d) by lra. assert (dp : 0 < d) by lra.
  assert (I1 : Rabs (/ d - / W) <= 35 / 2 * (u64 * / W)).
  { replace (/ d - / W) with ((W - d) * (/ d * / W)) by (field; lra). rewrite Rabs_mult, (Rabs_pos_eq (/ d * / W)) by (apply Rlt_le, Rmult_lt_0_compat; apply Rinv_0_lt_compat; auto).
    apply Rmult_le_reg_r with (d * W); [apply Rmult_lt_0_compat; auto|]. replace (Rabs (W - d) * (/ d * / W) * (d * W)) with (Rabs (W - d)) by (field; lra). replace (35 / 2 * (u64 * / W) * (d * W)) with (35 / 2 * (u64 * d)) by (field; lra).
    assert (u64 * W - 17 * (u64 * (u64 * W)) <= u64 * d). { replace (u64 * W - 17 * (u64 * (u64 * W))) with (u64 * (W - 17 * (u64 * W))) by ring. apply Rmult_le_compat_l; lra. }
    assert (Rabs (W - d) <= 17 * (u64 * W)) by (apply Rabs_le; lra). lra. }
  assert (iW : 0 < / W) by (apply Rinv_0_lt_compat; auto). assert (uiW : 0 < u64 * / W) by (apply Rmult_lt_0_compat; lra). assert (uiW2 : u64 * / W <= / 9007199254740992 * / W) by (apply Rmult_le_compat_r; lra).
  assert (I2 : Rabs (/ d) <= / W + 35 / 2 * (u64 * / W)) by (replace (/ d) with ((/ d - / W) + / W) by ring; pose proof (Rabs_triang (/ d - / W) (/ W)); rewrite (Rabs_pos_eq (/ W)) in H by lra; lra).
  assert (iWl : bpow radix2 (-200) <= / W <= bpow radix2 68).
  { change (-200)%Z with (- (200))%Z. rewrite bpow_opp. change 68%Z with (- (-68))%Z. rewrite (bpow_opp _ (-68)). split; apply Rinv_le; auto; try lra. apply bpow_gt_0. }
  destruct f1_ok as (Ff & Vf). destruct (fdiv_ok f1 (fsub (fmul p t) (fmul r q)) Ff) as (F4 & V4); [fold d; lra| |].
  { fold d. rewrite Vf. unfold Rdiv. rewrite Rmult_1_l. apply big_fin. assert (bpow radix2 68 <= bpow radix2 999) by (apply bpow_le; lia). change (bpow radix2 1000) with (bpow radix2 (1 + 999)). rewrite bpow_plus. change (bpow radix2 1) with 2. lra. }
  split; [exact F4|]. unfold inv, off. rewrite V4. fold d. rewrite Vf. unfold Rdiv. rewrite Rmult_1_l. pose proof (b64_near _ _ I2) as N2.
  assert (EI : eta64 <= / 1024 * (u64 * / W)) by (apply eta_below; apply Rle_trans with (bpow radix2 (-200)); [apply bpow_le; lia|apply iWl]).
  replace (u64 * (/ W + 35 / 2 * (u64 * / W))) with (u64 * / W + 35 / 2 * (u64 * (u64 * / W))) in N2 by ring. assert (u64 * (u64 * / W) <= / 9007199254740992 * (u64 * / W)) by (apply Rmult_le_compat_r; lra).
  replace (b64 (/ d) - / W) with ((b64 (/ d) - / d) + (/ d - / W)) by ring. pose proof (Rabs_triang (b64 (/ d) - / d) (/ d - / W)). lra.
Qed.
(** An entry of the inverse: [w] is the semi-axis in the entry of the matrix, [v] the other one. *)
Lemma inverse_entry : forall m inv K w v, fin m = true -> fin inv = true -> w * v = A * B -> bpow radix2 (-34) <= w <= bpow radix2 100 -> bpow radix2 (-34) <= v <= bpow radix2 100 -> Rabs K <= 1 ->
  off (13 / 4) w (f2r m) (K * w) -> off 19 (/ (A * B)) (f2r inv) (/ (A * B)) -> fin (fmul m inv) = true /\ off 24 (/ v) (f2r (fmul m inv)) (K / v).
Proof.
  intros m inv K w v Fm Fi E Hw Hv HK H1 H2. pose proof (bpow_gt_0 radix2 (-34)) as P34. pose proof pos_A. pose proof pos_B. assert (W0 : 0 < A * B) by (apply Rmult_lt_0_compat; auto). assert (iW : 0 < / (A * B)) by (apply Rinv_0_lt_compat; auto).
  assert (wv : w * / (A * B) = / v) by (rewrite <- E; field; lra). assert (iv : bpow radix2 (-100) <= / v <= bpow radix2 34).
  { change (-100)%Z with (- (100))%Z. rewrite bpow_opp. change 34%Z with (- (-34))%Z. rewrite (bpow_opp _ (-34)). split; apply Rinv_le; auto; lra. }
  destruct (near_prod' (13/4) 19 w (/ (A * B)) (f2r m) (K * w) (f2r inv) (/ (A * B))) as (P1 & P2); try lra; auto.
  - apply size1; lra.
  - rewrite Rabs_pos_eq; lra.
  - rewrite wv. apply Rle_trans with (bpow radix2 (-100)); [apply bpow_le; lia|apply iv].
  - rewrite wv in *. destruct (fmul_ok m inv Fm Fi) as (F & V). { apply big_fin. assert (bpow radix2 34 <= bpow radix2 998) by (apply bpow_le; lia). change (bpow radix2 1000) with (bpow radix2 (2 + 998)). rewrite bpow_plus. change (bpow radix2 2) with 4. lra. }
    split; auto. rewrite V. replace (K / v) with (K * w * / (A * B)) by (unfold Rdiv; rewrite <- wv; ring). unfold off in *. destruct u64_bounds as ((U0 & _) & _). pose proof (bpow_gt_0 radix2 (-100)). assert (0 <= u64 * / v) by (apply Rmult_le_pos; lra). lra.
Qed.
Lemma inverse_near : exists z, z_inverse ieee M (z_image ieee M a b th) (cx, cy) = z /\ z_d z = (cx, cy) /\ (fin (z_00 z) = true /\ fin (z_01 z) = true /\ fin (z_10 z) = true /\ fin (z_11 z) = true) /\
  off 24 (/ A) (f2r (z_00 z)) (C / A) /\ off 24 (/ A) (f2r (z_01 z)) (T / A) /\ off 24 (/ B) (f2r (z_10 z)) (- T / B) /\ off 24 (/ B) (f2r (z_11 z)) (C / B).
Proof.
  destruct image_near as (p & q & r & t & E & (Fp & Fq & Fr & Ft) & Hp & Hq & Hr & Ht). eexists. split; [reflexivity|]. rewrite E. unfold z_inverse. rewrite c1_one. cbn [z_d z_00 z_01 z_10 z_11 a_mul a_div a_sub ieee x_opp M ieee_maths].
  destruct (inverse_off p q r t (conj Fp (conj Fq (conj Fr Ft))) Hp Hq Hr Ht) as (Fi & Hi). set (inv := fdiv f1 (fsub (fmul p t) (fmul r q))) in *.
  pose proof (axis_range a Ha) as RA. pose proof (axis_range b Hb) as RB. pose proof (cos_abs (f2r th)) as B1. pose proof (sin_abs (f2r th)) as B2. assert (B3 : Rabs (- T) <= 1) by (rewrite Rabs_Ropp; exact B2).
  assert (NG : forall k W x X, off k W (f2r x) X -> off k W (f2r (fopp x)) (- X)) by (intros k W x X G; unfold off in *; rewrite f2r_opp; replace (- f2r x - - X) with (- (f2r x - X)) by ring; rewrite Rabs_Ropp; exact G).
  destruct (inverse_entry t inv C B A Ft Fi ltac:(ring) RB RA B1 Ht Hi) as (G1 & G2).
  destruct (inverse_entry (fopp q) inv T B A ltac:(rewrite fopp_parts; exact Fq) Fi ltac:(ring) RB RA B2) as (G3 & G4); [|exact Hi|]. { apply NG in Hq. replace (- (- T * B)) with (T * B) in Hq by ring. exact Hq. }
  destruct (inverse_entry (fopp r) inv (- T) A B ltac:(rewrite fopp_parts; exact Fr) Fi eq_refl RA RB B3) as (G5 & G6); [|exact Hi|]. { apply NG in Hr. replace (- (T * A)) with (- T * A) in Hr by ring. exact Hr. }
  destruct (inverse_entry p inv C A B Fp Fi eq_refl RA RB B1 Hp Hi) as (G7 & G8).
  repeat split; assumption.
Qed.
End Ellipse.
