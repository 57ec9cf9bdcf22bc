(** The test of a point in doubles. *)
From Coq Require Import Reals ZArith List Bool Lia Lra.
From Flocq Require Import Core IEEE754.BinarySingleNaN.
From Verif Require Import Prelude Ellipse Rounding RoundedGen RoundedGenProofs2 RoundedGenProofs3 EvalTac Doubles DoublesSpec DoublesProofs DoublesProofs5 CtrlDoubles CtrlDoublesProofs NavDoublesSpec StepDoubles StepDoublesSpec StepDoublesProofs StepDoublesProofs5
  EllDoubles EllDoublesSpec EllDoublesProofs.
Import ListNotations.
Open Scope R_scope.

Lemma b64_mono : forall x y, x <= y -> b64 x <= b64 y.
Proof. intros. apply round_le; auto; [apply FLT_exp_valid; reflexivity|apply valid_rnd_N]. Qed.
Lemma b64_sign : forall x, 0 <= x -> 0 <= b64 x.
Proof. intros x H. pose proof (b64_mono 0 x H) as G. rewrite (b64_fix 0) in G by (apply (is_b64_int 0); lia). exact G. Qed.
(** A component of the generators. *)
Lemma component_near : forall i j v0 v1 I J w e0 e1, 0 < w -> Rabs I <= 1 -> Rabs J <= 1 -> off 24 (/ w) (f2r i) (I / w) -> off 24 (/ w) (f2r j) (J / w) ->
  off 1 (Rabs e0) (f2r v0) e0 -> off 1 (Rabs e1) (f2r v1) e1 -> fin (fadd (fmul i v0) (fmul j v1)) = true ->
  Rabs (f2r (fadd (fmul i v0) (fmul j v1)) - (I * e0 + J * e1) / w) <= 43 * (u64 * (sqrt (e0 * e0 + e1 * e1) / w)) + 5 * eta64.
Proof.
  intros i j v0 v1 I J w e0 e1 Hw HI HJ Hi Hj H0 H1 F. destruct (fadd_parts _ _ F) as (F1 & F2). rewrite (fadd_fin _ _ F1 F2 F), (fmul_fin _ _ F1), (fmul_fin _ _ F2).
  assert (iw : 0 < / w) by (apply Rinv_0_lt_compat; auto). pose proof (Rabs_pos e0) as P0. pose proof (Rabs_pos e1) as P1. destruct u64_bounds as ((U0 & U1) & _). pose proof eta64_pos as n0.
  assert (SI : forall K, Rabs K <= 1 -> Rabs (K / w) <= / w) by (intros K HK; unfold Rdiv; rewrite Rabs_mult, (Rabs_pos_eq (/ w)) by lra; rewrite <- (Rmult_1_l (/ w)) at 2; apply Rmult_le_compat_r; lra).
  destruct (near_prod 24 1 (/ w) (Rabs e0) (f2r i) (I / w) (f2r v0) e0) as (A1 & _); try lra; auto. destruct (near_prod 24 1 (/ w) (Rabs e1) (f2r j) (J / w) (f2r v1) e1) as (A2 & _); try lra; auto.
  set (x := b64 (f2r i * f2r v0)) in *. set (y := b64 (f2r j * f2r v1)) in *. set (W := / w * Rabs e0 + / w * Rabs e1).
  assert (W1 : 0 <= / w * Rabs e0) by (apply Rmult_le_pos; lra). assert (W2 : 0 <= / w * Rabs e1) by (apply Rmult_le_pos; lra).
  assert (uW : u64 * W = u64 * (/ w * Rabs e0) + u64 * (/ w * Rabs e1)) by (unfold W; ring).
  assert (0 <= u64 * (/ w * Rabs e0)) by (apply Rmult_le_pos; lra). assert (0 <= u64 * (/ w * Rabs e1)) by (apply Rmult_le_pos; lra).
  destruct (near_sum 27 W x (I / w * e0) y (J / w * e1) (2 * eta64)) as (A3 & _); try lra.
  - unfold W; lra.
  - assert (Rabs (I / w * e0) <= / w * Rabs e0) by (rewrite Rabs_mult; apply Rmult_le_compat_r; auto). assert (Rabs (J / w * e1) <= / w * Rabs e1) by (rewrite Rabs_mult; apply Rmult_le_compat_r; auto).
    pose proof (Rabs_triang (I / w * e0) (J / w * e1)). unfold W. lra.
  - pose proof (Rabs_triang (x - I / w * e0) (y - J / w * e1)). lra.
  - replace ((I * e0 + J * e1) / w) with (I / w * e0 + J / w * e1) by (field; lra).
    assert (S : W <= 3 / 2 * (sqrt (e0 * e0 + e1 * e1) / w)).
    { pose proof (sum_root e0 e1) as Q. unfold W, Rdiv. replace (/ w * Rabs e0 + / w * Rabs e1) with ((Rabs e0 + Rabs e1) * / w) by ring. replace (3 * / 2 * (sqrt (e0 * e0 + e1 * e1) * / w)) with (3 / 2 * sqrt (e0 * e0 + e1 * e1) * / w) by (unfold Rdiv; ring). apply Rmult_le_compat_r; lra. }
    assert (u64 * W <= u64 * (3 / 2 * (sqrt (e0 * e0 + e1 * e1) / w))) by (apply Rmult_le_compat_l; lra). lra.
Qed.
Lemma component_fin : forall i j v0 v1 I J w e0 e1, bpow radix2 (-34) <= w -> Rabs I <= 1 -> Rabs J <= 1 -> off 24 (/ w) (f2r i) (I / w) -> off 24 (/ w) (f2r j) (J / w) ->
  off 1 (Rabs e0) (f2r v0) e0 -> off 1 (Rabs e1) (f2r v1) e1 -> Rabs e0 <= bpow radix2 201 -> Rabs e1 <= bpow radix2 201 -> fin i = true -> fin j = true -> fin v0 = true -> fin v1 = true ->
  fin (fadd (fmul i v0) (fmul j v1)) = true /\ Rabs (f2r (fadd (fmul i v0) (fmul j v1))) <= bpow radix2 300.
Proof.
  intros i j v0 v1 I J w e0 e1 Hw HI HJ Hi Hj H0 H1 L0 L1 Fi Fj Fv0 Fv1. pose proof (bpow_gt_0 radix2 (-34)) as P34. assert (iw : 0 < / w <= bpow radix2 34).
  { split; [apply Rinv_0_lt_compat; lra|]. change 34%Z with (- (-34))%Z. rewrite (bpow_opp _ (-34)). apply Rinv_le; lra. }
  pose proof (Rabs_pos e0) as P0. pose proof (Rabs_pos e1) as P1. destruct u64_bounds as ((U0 & U1) & _). pose proof (eta_below 1 (bpow_le radix2 (-900) 0 ltac:(lia))) as n0. rewrite Rmult_1_r in n0.
  assert (SI : forall K, Rabs K <= 1 -> Rabs (K / w) <= / w) by (intros K HK; unfold Rdiv; rewrite Rabs_mult, (Rabs_pos_eq (/ w)) by lra; rewrite <- (Rmult_1_l (/ w)) at 2; apply Rmult_le_compat_r; lra).
  assert (BB : forall k v K e, Rabs K <= 1 -> off 24 (/ w) (f2r k) (K / w) -> off 1 (Rabs e) (f2r v) e -> Rabs e <= bpow radix2 201 -> fin k = true -> fin v = true -> fin (fmul k v) = true /\ Rabs (f2r (fmul k v)) <= bpow radix2 250).
  { intros k v K e HK Hk Hv L Fk Fv. pose proof (Rabs_pos e). destruct (near_prod 24 1 (/ w) (Rabs e) (f2r k) (K / w) (f2r v) e) as (A1 & A2); try lra; auto.
    assert (P : / w * Rabs e <= bpow radix2 235) by (change (bpow radix2 235) with (bpow radix2 (34 + 201)); rewrite bpow_plus; apply Rmult_le_compat; lra).
    assert (Q : 4 * (/ w * Rabs e) <= bpow radix2 237) by (change (bpow radix2 237) with (bpow radix2 (2 + 235)); rewrite bpow_plus; change (bpow radix2 2) with 4; lra).
    destruct (fmul_ok k v Fk Fv) as (F & V). { apply big_fin. pose proof (bpow_le radix2 237 1000 ltac:(lia)). lra. }
    split; auto. rewrite V. pose proof (b64_near (f2r k * f2r v) _ (Rle_trans _ _ _ A2 Q)) as N. pose proof (bpow_gt_0 radix2 237). assert (u64 * bpow radix2 237 <= / 2 * bpow radix2 237) by (apply Rmult_le_compat_r; lra).
    pose proof (bpow_le radix2 0 237 ltac:(lia)) as O. change (bpow radix2 0) with 1 in O. assert (E : bpow radix2 250 = 8192 * bpow radix2 237) by (change (bpow radix2 250) with (bpow radix2 (13 + 237)); rewrite bpow_plus; reflexivity).
    replace (b64 (f2r k * f2r v)) with ((b64 (f2r k * f2r v) - f2r k * f2r v) + f2r k * f2r v) by ring. pose proof (Rabs_triang (b64 (f2r k * f2r v) - f2r k * f2r v) (f2r k * f2r v)). lra. }
  destruct (BB i v0 I e0) as (F1 & B1); auto. destruct (BB j v1 J e1) as (F2 & B2); auto.
  assert (S : Rabs (f2r (fmul i v0) + f2r (fmul j v1)) <= 2 * bpow radix2 250) by (pose proof (Rabs_triang (f2r (fmul i v0)) (f2r (fmul j v1))); lra).
  pose proof (bpow_gt_0 radix2 250). assert (E : bpow radix2 300 = 1125899906842624 * bpow radix2 250) by (change (bpow radix2 300) with (bpow radix2 (50 + 250)); rewrite bpow_plus; reflexivity).
  destruct (fadd_ok _ _ F1 F2) as (F & V). { apply big_fin. pose proof (bpow_le radix2 300 1000 ltac:(lia)). lra. }
  split; auto. rewrite V. pose proof (b64_near _ _ S) as N. assert (u64 * (2 * bpow radix2 250) <= / 2 * (2 * bpow radix2 250)) by (apply Rmult_le_compat_r; lra). pose proof (bpow_le radix2 0 250 ltac:(lia)) as O. change (bpow radix2 0) with 1 in O.
  set (q := f2r (fmul i v0) + f2r (fmul j v1)) in *. replace (b64 q) with ((b64 q - q) + q) by ring. pose proof (Rabs_triang (b64 q - q) q). lra.
Qed.

Section Inside.
Variables (sq cosf sinf : f64 -> f64) (at2 : f64 -> f64 -> f64).
Let M := ieee_maths sq cosf sinf at2.
Hypothesis trig : close_trig cosf sinf.
Variables a b th cx cy : f64.
Hypothesis Ha : axis64 a.
Hypothesis Hb : axis64 b.
Hypothesis Fth : fin th = true.
Let Mm := ieee_maths (fun x => fmul x x) cosf sinf at2.
Variable p : f64 * f64.
Let z := z_inverse ieee M (z_image ieee M a b th) (cx, cy).
Let vx := fsub (fst p) cx.
Let vy := fsub (snd p) cy.
Let gx := fadd (fmul (z_00 z) vx) (fmul (z_01 z) vy).
Let gy := fadd (fmul (z_10 z) vx) (fmul (z_11 z) vy).
Let n := g_norm ieee Mm (gx, gy).

Lemma inside_norm : k_inside ieee M (Some z) p = Bleb n f1.
Proof. unfold k_inside. rewrite c1_one. reflexivity. Qed.
Lemma off_sub : forall x y, fin (fsub x y) = true -> off 1 (Rabs (f2r x - f2r y)) (f2r (fsub x y)) (f2r x - f2r y).
Proof.
  intros x y F. destruct (sub_exact x y F) as (d & D & E). unfold off. rewrite E. replace ((f2r x - f2r y) * (1 + d) - (f2r x - f2r y)) with (d * (f2r x - f2r y)) by ring. rewrite Rabs_mult, Rmult_1_l. apply Rmult_le_compat_r; auto. apply Rabs_pos.
Qed.
Notation level := (level64 a b th (cx, cy) p).
Notation ratio := (apart (cx, cy) p / Rmin (f2r a) (f2r b)).
Lemma level_ratio : 0 <= level <= ratio.
Proof.
  pose proof (pos_A a Ha) as PA. pose proof (pos_A b Hb) as PB. set (m := Rmin (f2r a) (f2r b)). assert (M0 : 0 < m) by (unfold m; apply Rmin_glb_lt; auto). assert (MA : m <= f2r a) by apply Rmin_l. assert (MB : m <= f2r b) by apply Rmin_r.
  split; [apply sqrt_pos|]. unfold level64. rewrite <- (turned_length th (cx, cy) p). set (x := ahead th (cx, cy) p). set (y := aside th (cx, cy) p).
  assert (H : forall t w, m <= w -> t / w * (t / w) <= t * t * (/ m * / m)).
  { intros t w L. assert (I : 0 < / w <= / m) by (split; [apply Rinv_0_lt_compat; lra|apply Rinv_le; lra]). replace (t / w * (t / w)) with (t * t * (/ w * / w)) by (unfold Rdiv; ring). apply Rmult_le_compat_l; [apply Rle_0_sqr|]. apply Rmult_le_compat; lra. }
  apply Rle_trans with (sqrt ((x * x + y * y) * (/ m * / m))).
  - apply sqrt_le_1_alt. pose proof (H x _ MA). pose proof (H y _ MB). lra.
  - assert (0 < / m) by (apply Rinv_0_lt_compat; auto). rewrite sqrt_mult_alt by (pose proof (Rle_0_sqr x); pose proof (Rle_0_sqr y); unfold Rsqr in *; lra). rewrite sqrt_square by lra. apply Rle_refl.
Qed.
(** The two components and their norm. *)
Lemma parts_near : fin gx = true -> fin gy = true -> (fin (fst p) = true /\ fin (snd p) = true /\ fin cx = true /\ fin cy = true) /\
  let h := sqrt (f2r gx * f2r gx + f2r gy * f2r gy) in level <= h + (86 * (u64 * ratio) + 10 * eta64) /\ h <= level + (86 * (u64 * ratio) + 10 * eta64).
Proof.
  intros Fx Fy. destruct (inverse_near sq cosf sinf at2 trig a b th cx cy Ha Hb Fth) as (z' & Ez & _ & _ & I1 & I2 & I3 & I4). fold M in Ez. assert (Ez' : z' = z) by (symmetry; exact Ez). subst z'.
  destruct (fadd_parts _ _ Fx) as (Q1 & Q2). destruct (fmul_parts _ _ Q1) as (_ & Fvx). destruct (fmul_parts _ _ Q2) as (_ & Fvy). split; [destruct (fsub_parts _ _ Fvx); destruct (fsub_parts _ _ Fvy); auto|]. intros h.
  pose proof (pos_A a Ha) as PA. pose proof (pos_A b Hb) as PB. pose proof (cos_abs (f2r th)) as B1. pose proof (sin_abs (f2r th)) as B2. assert (B3 : Rabs (- sin (f2r th)) <= 1) by (rewrite Rabs_Ropp; exact B2).
  pose proof (off_sub _ _ Fvx) as O0. pose proof (off_sub _ _ Fvy) as O1.
  pose proof (component_near _ _ _ _ _ _ _ _ _ PA B1 B2 I1 I2 O0 O1 Fx) as N1. pose proof (component_near _ _ _ _ _ _ _ _ _ PB B3 B1 I3 I4 O0 O1 Fy) as N2. fold z vx vy in N1, N2. fold gx in N1. fold gy in N2.
  set (D := sqrt ((f2r (fst p) - f2r cx) * (f2r (fst p) - f2r cx) + (f2r (snd p) - f2r cy) * (f2r (snd p) - f2r cy))) in *. change (apart (cx, cy) p) with D.
  set (m := Rmin (f2r a) (f2r b)). assert (M0 : 0 < m) by (unfold m; apply Rmin_glb_lt; auto). assert (D0 : 0 <= D) by apply sqrt_pos. destruct u64_bounds as ((U0 & U1) & _).
  assert (L : forall w, m <= w -> u64 * (D / w) <= u64 * (D / m)) by (intros w G; apply Rmult_le_compat_l; [lra|]; unfold Rdiv; apply Rmult_le_compat_l; [exact D0|apply Rinv_le; lra]).
  pose proof (L (f2r a) (Rmin_l _ _)). pose proof (L (f2r b) (Rmin_r _ _)).
  change ((cos (f2r th) * (f2r (fst p) - f2r cx) + sin (f2r th) * (f2r (snd p) - f2r cy)) / f2r a) with (ahead th (cx, cy) p / f2r a) in N1. change ((- sin (f2r th) * (f2r (fst p) - f2r cx) + cos (f2r th) * (f2r (snd p) - f2r cy)) / f2r b) with (aside th (cx, cy) p / f2r b) in N2.
  unfold level64. set (X := ahead th (cx, cy) p / f2r a) in *. set (Y := aside th (cx, cy) p / f2r b) in *.
  pose proof (norm_triangle X Y (f2r gx) (f2r gy)) as T1. pose proof (norm_triangle (f2r gx) (f2r gy) X Y) as T2. fold h in T1, T2. rewrite (Rabs_minus_sym X), (Rabs_minus_sym Y) in T2. lra.
Qed.
Lemma small_terms : 4 * bpow radix2 (-530) <= / 8 * u64 /\ 10 * eta64 <= / 8 * u64.
Proof.
  destruct u64_bounds as ((U0 & U1) & EU). split.
  - rewrite EU. assert (bpow radix2 (-530) <= bpow radix2 (-6 + -53)) by (apply bpow_le; lia). rewrite bpow_plus in H. change (bpow radix2 (-6)) with (/ 64) in H. pose proof (bpow_gt_0 radix2 (-53)). lra.
  - pose proof (eta_below 1 (bpow_le radix2 (-900) 0 ltac:(lia))) as H. rewrite Rmult_1_r in H. lra.
Qed.
Lemma border_val : border64 a b (cx, cy) p = 128 * (u64 * ratio).
Proof. unfold border64. assert (E : bpow radix2 (-46) = 128 * u64) by (rewrite (proj2 u64_bounds); change (-46)%Z with (7 + -53)%Z; rewrite bpow_plus; reflexivity). rewrite E. ring. Qed.

Theorem inside_level : k_inside ieee M (Some z) p = true -> (fin (fst p) = true /\ fin (snd p) = true /\ fin cx = true /\ fin cy = true) /\ level <= 1 + border64 a b (cx, cy) p.
Proof.
  rewrite inside_norm. intros H. destruct f1_ok as (F1 & V1).
  assert (Fn : fin n = true /\ f2r n <= 1).
  { assert (L : Bltb n (fmake 2 0) = true). { destruct (le64_number _ _ H) as (Nn & _). apply le64_inv in H. rewrite (key_fin f1 F1), V1 in H. apply lt64_key; auto; [discriminate|]. assert (K : key (fmake 2 0) = 2) by (rewrite key_fin by reflexivity; unfold f2r, fmake; cbn; unfold F2R; cbn; lra). lra. }
    assert (F2 : fin (fmake 2 0) = true) by reflexivity. destruct (root_below _ _ F2 L) as (G & _). split; [exact G|]. rewrite ble_ok in H by auto. rcasesh H; [lra|discriminate]. }
  destruct Fn as (Fn & Ln). destruct (norm_near (fun x => fmul x x) cosf sinf at2 fmul_square (gx, gy) Fn) as (Gx & Gy & N). cbn [fst snd] in *. destruct (parts_near Gx Gy) as (P & L1 & _). split; [exact P|]. rewrite border_val. change (Rabs (f2r n - sqrt (f2r gx * f2r gx + f2r gy * f2r gy)) <= 6 * u64 * sqrt (f2r gx * f2r gx + f2r gy * f2r gy) + 4 * bpow radix2 (-530)) in N.
  set (h := sqrt (f2r gx * f2r gx + f2r gy * f2r gy)) in *. destruct level_ratio as (R0 & R1). assert (H0 : 0 <= h) by apply sqrt_pos. destruct small_terms as (S1 & S2). destruct u64_bounds as ((U0 & U1) & _).
  apply Rabs_le_inv in N. assert (uh : u64 * h <= / 9007199254740992 * h) by (apply Rmult_le_compat_r; lra). assert (h2 : h <= 2) by lra. assert (uh2 : u64 * h <= u64 * 2) by (apply Rmult_le_compat_l; lra).
  destruct (Rle_lt_dec 1 ratio) as [G|G].
  - assert (u64 * 1 <= u64 * ratio) by (apply Rmult_le_compat_l; lra). lra.
  - assert (0 <= u64 * ratio) by (apply Rmult_le_pos; lra). lra.
Qed.
Theorem outside_level : coord64 cx -> coord64 cy -> coord64 (fst p) -> coord64 (snd p) -> k_inside ieee M (Some z) p = false -> 1 - border64 a b (cx, cy) p <= level.
Proof.
  rewrite inside_norm. intros (Fcx & Lcx) (Fcy & Lcy) (Fpx & Lpx) (Fpy & Lpy) H. destruct f1_ok as (F1 & V1).
  destruct (inverse_near sq cosf sinf at2 trig a b th cx cy Ha Hb Fth) as (z' & Ez & _ & (Z1 & Z2 & Z3 & Z4) & I1 & I2 & I3 & I4). fold M in Ez. assert (Ez' : z' = z) by (symmetry; exact Ez). subst z'.
  pose proof (axis_range a Ha) as RA. pose proof (axis_range b Hb) as RB. pose proof (cos_abs (f2r th)) as B1. pose proof (sin_abs (f2r th)) as B2. assert (B3 : Rabs (- sin (f2r th)) <= 1) by (rewrite Rabs_Ropp; exact B2).
  assert (DD : forall x y, Rabs (f2r x) <= bpow radix2 200 -> Rabs (f2r y) <= bpow radix2 200 -> Rabs (f2r x - f2r y) <= bpow radix2 201).
  { intros x y Lx Ly. change (bpow radix2 201) with (bpow radix2 (1 + 200)). rewrite bpow_plus. change (bpow radix2 1) with 2. pose proof (Rabs_triang (f2r x) (- f2r y)). rewrite Rabs_Ropp in H0. unfold Rminus. lra. }
  pose proof (DD _ _ Lpx Lcx) as Dx. pose proof (DD _ _ Lpy Lcy) as Dy. assert (B201 : bpow radix2 201 <= bpow radix2 1000) by (apply bpow_le; lia).
  destruct (fsub_ok (fst p) cx Fpx Fcx) as (Fvx & _); [apply big_fin; lra|]. destruct (fsub_ok (snd p) cy Fpy Fcy) as (Fvy & _); [apply big_fin; lra|].
  pose proof (off_sub _ _ Fvx) as O0. pose proof (off_sub _ _ Fvy) as O1.
  destruct (component_fin _ _ _ _ _ _ _ _ _ (proj1 RA) B1 B2 I1 I2 O0 O1 Dx Dy Z1 Z2 Fvx Fvy) as (Fx & Bx). destruct (component_fin _ _ _ _ _ _ _ _ _ (proj1 RB) B3 B1 I3 I4 O0 O1 Dx Dy Z3 Z4 Fvx Fvy) as (Fy & By). fold z vx vy in Fx, Bx, Fy, By. fold gx in Fx, Bx. fold gy in Fy, By.
  assert (SQ : forall g, fin g = true -> Rabs (f2r g) <= bpow radix2 300 -> fin (fmul g g) = true /\ 0 <= f2r (fmul g g) <= bpow radix2 600).
  { intros g Fg Bg. assert (P : 0 <= f2r g * f2r g <= bpow radix2 600).
    { split; [apply Rle_0_sqr|]. rewrite <- (Rabs_pos_eq (f2r g * f2r g)) by apply Rle_0_sqr. rewrite Rabs_mult. change 600%Z with (300 + 300)%Z. rewrite bpow_plus. apply Rmult_le_compat; auto; apply Rabs_pos. }
    destruct (fmul_ok g g Fg Fg) as (F & V). { apply big_fin. rewrite Rabs_pos_eq by apply P. pose proof (bpow_le radix2 600 1000 ltac:(lia)). lra. }
    split; auto. rewrite V. split.
    - apply b64_sign. apply P.
    - assert (E : b64 (bpow radix2 600) = bpow radix2 600). { apply b64_pow. lia. } pose proof (b64_mono _ _ (proj2 P)) as G. rewrite E in G. exact G. }
  destruct (SQ gx Fx Bx) as (F2 & S2). destruct (SQ gy Fy By) as (F3 & S3).
  assert (Fs : fin (fadd (fmul gx gx) (fmul gy gy)) = true /\ 0 <= f2r (fadd (fmul gx gx) (fmul gy gy))).
  { destruct (fadd_ok _ _ F2 F3) as (F & V). { apply big_fin. rewrite Rabs_pos_eq by lra. assert (E : bpow radix2 1000 = bpow radix2 400 * bpow radix2 600) by (rewrite <- bpow_plus; reflexivity). assert (2 <= bpow radix2 400) by (apply (bpow_le radix2 1 400); lia). pose proof (bpow_gt_0 radix2 600). assert (2 * bpow radix2 600 <= bpow radix2 400 * bpow radix2 600) by (apply Rmult_le_compat_r; lra). lra. }
    split; auto. rewrite V. apply b64_sign. lra. }
  assert (Fn : fin n = true).
  { destruct Fs as (F & P). apply (fsqrt_ok _ F P). }
  destruct (norm_near (fun x => fmul x x) cosf sinf at2 fmul_square (gx, gy) Fn) as (Gx & Gy & N). cbn [fst snd] in *. destruct (parts_near Gx Gy) as (_ & _ & L1). rewrite border_val. change (Rabs (f2r n - sqrt (f2r gx * f2r gx + f2r gy * f2r gy)) <= 6 * u64 * sqrt (f2r gx * f2r gx + f2r gy * f2r gy) + 4 * bpow radix2 (-530)) in N.
  set (h := sqrt (f2r gx * f2r gx + f2r gy * f2r gy)) in *. destruct level_ratio as (R0 & R1). assert (H0 : 0 <= h) by apply sqrt_pos. destruct small_terms as (T1 & T2). destruct u64_bounds as ((U0 & U1) & _).
  rewrite ble_ok in H by auto. rcasesh H; [discriminate|]. rewrite V1 in Hc. apply Rabs_le_inv in N. assert (uh : u64 * h <= / 9007199254740992 * h) by (apply Rmult_le_compat_r; lra).
  assert (UR : 0 <= u64 * ratio) by (apply Rmult_le_pos; lra).
  destruct (Rle_lt_dec (1 - 128 * (u64 * ratio)) level) as [G|G]; auto. exfalso.
  assert (h1 : h <= 1 + / 8 * u64) by lra. assert (uh1 : u64 * h <= u64 * 2) by (apply Rmult_le_compat_l; lra).
  assert (K : u64 * ratio <= u64 * (/ 2)) by lra. apply Rmult_le_reg_l in K; [|lra]. lra.
Qed.
End Inside.
