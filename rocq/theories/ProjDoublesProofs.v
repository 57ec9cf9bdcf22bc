(** Rounding in the intersections with a line. *)
From Coq Require Import Reals ZArith List Bool Lia Lra Psatz.
From Flocq Require Import Core IEEE754.BinarySingleNaN.
From Verif Require Import Prelude Ellipse Rounding RoundedGen RoundedGenProofs2 RoundedGenProofs3 RoundedGenProofs4 EvalTac Doubles DoublesSpec DoublesProofs CtrlDoubles CtrlDoublesProofs NavDoublesSpec StepDoubles StepDoublesSpec StepDoublesProofs
  EllDoubles EllDoublesSpec EllDoublesProofs EllDoublesProofs2 StepDoublesProofs5 ProjDoubles ProjDoublesSpec.
Import ListNotations.
Open Scope R_scope.

(** ** The exact instance *)
Section ExactProj.
Lemma tiny_exact : v_tiny reals = em15.
Proof. unfold v_tiny, em15. cbn. field. Qed.
Lemma circle_exact : forall p1 p2, v_circle reals exact_maths (exact_pair p1) (exact_pair p2) =
  match circle_line p1 p2 with Some (i, j) => Some (exact_pair i, exact_pair j) | None => None end.
Proof.
  intros p1 p2. unfold v_circle, circle_line. rewrite tiny_exact. unfold v_alpha, v_beta, v_gamma, v_axis, v_slanted, exact_pair. cbn [a_sub a_mul a_add a_div a_abs a_lt a_le a_q reals x_opp x_sqrt exact_maths fst snd].
  assert (O : c1 reals = 1) by (cbn; field). assert (Z : c0 reals = 0) by (cbn; field). rewrite O, Z. replace (2 / 1) with 2 by field. replace (4 / 1) with 4 by field.
  destruct (Rltb (Rabs (vy p1 - vy p2)) em15) eqn:E1, (Rltb (Rabs (vx p2 - vx p1)) em15) eqn:E2; cbn [andb]; auto.
  - destruct (Rleb _ 1); reflexivity.
  - destruct (Rleb _ 1); reflexivity.
  - destruct (Rltb _ 0); reflexivity.
Qed.
Lemma gen_exact : forall e z p, exact_space e = Some z -> v_gen reals z (exact_pair p) = exact_pair (ell_gen e p).
Proof. intros e z p H. unfold exact_space, exact_ell in H. destruct (e_set e); [|discriminate]. injection H as <-. reflexivity. Qed.
Lemma out_exact : forall e z p, exact_space e = Some z -> v_out reals z (exact_pair p) = exact_pair (ell_out e p).
Proof. intros e z p H. unfold exact_space, exact_ell in H. destruct (e_set e); [|discriminate]. injection H as <-. reflexivity. Qed.
Lemma norm_exact : forall p, v_norm reals exact_maths (exact_pair p) = vnorm p.
Proof. intros p. unfold v_norm, vnorm, exact_pair. cbn [a_add a_mul reals x_sqrt exact_maths fst snd]. f_equal; try ring. Qed.
Lemma inters_exact : forall e p1 p2, v_intersections reals exact_maths (exact_space e) (exact_pair p1) (exact_pair p2) =
  match ell_intersections e p1 p2 with Some (i, j) => Some (exact_pair i, exact_pair j) | None => None end.
Proof.
  intros e p1 p2. unfold v_intersections, ell_intersections. destruct (e_set e) eqn:E; cbn [negb].
  - destruct (exact_space e) as [z|] eqn:F; [|unfold exact_space, exact_ell in F; rewrite E in F; discriminate]. rewrite !(gen_exact e z) by auto. rewrite circle_exact.
    destruct (circle_line _ _) as [(i & j)|]; [|reflexivity]. rewrite !(out_exact e z) by auto. reflexivity.
  - unfold exact_space, exact_ell. rewrite E. reflexivity.
Qed.
Lemma closest_exact : forall e p1 p2, v_closest reals exact_maths (exact_space e) (exact_pair p1) (exact_pair p2) = option_map exact_pair (ell_closest e p1 p2).
Proof.
  intros e p1 p2. unfold v_closest, ell_closest. rewrite inters_exact. destruct (ell_intersections e p1 p2) as [(i & j)|]; [|reflexivity].
  change (g_sub reals (exact_pair p2) (exact_pair i)) with (exact_pair (vsub p2 i)). change (g_sub reals (exact_pair p2) (exact_pair j)) with (exact_pair (vsub p2 j)). rewrite !norm_exact. cbn [a_lt reals].
  destruct (Rltb _ _); reflexivity.
Qed.
Lemma project_exact : forall e t p, v_project reals exact_maths (exact_space e) (exact_pair t) (exact_pair p) = exact_pair (ell_project e t p).
Proof.
  intros e t p. unfold ell_project. destruct (e_set e) eqn:E; cbn [negb].
  - destruct (exact_space e) as [z|] eqn:F; [|unfold exact_space, exact_ell in F; rewrite E in F; discriminate]. unfold v_project. rewrite (gen_exact e z), norm_exact by auto. cbn [a_le reals].
    assert (O : c1 reals = 1) by (cbn; field). rewrite O. destruct (Rleb _ 1); [reflexivity|]. rewrite <- F, closest_exact. destruct (ell_closest e p t) as [i|]; [reflexivity|]. cbn [option_map].
    unfold v_unit. rewrite norm_exact. rewrite <- (out_exact e z) by auto. reflexivity.
  - unfold v_project, exact_space, exact_ell. rewrite E. reflexivity.
Qed.
End ExactProj.

(** ** Lines along an axis *)
Lemma near_one : forall x, 0 <= x -> Rabs (b64 x - x) <= u64 * x + eta64.
Proof. intros x H. apply b64_near. rewrite Rabs_pos_eq; lra. Qed.
Lemma b64_nonneg : forall x, 0 <= x -> 0 <= b64 x.
Proof. intros x H. rewrite <- (b64_fix 0) by apply (is_b64_int 0 ltac:(lia)). apply b64_mono. exact H. Qed.
Lemma b64_le1 : forall x, x <= 1 -> b64 x <= 1.
Proof. intros x H. rewrite <- (b64_fix 1) by apply is_b64_1. apply b64_mono. exact H. Qed.
Lemma axis_border : forall sq c s at2 k q x, v_axis ieee (ieee_maths sq c s at2) k = Some (q, x) -> q = k /\ on_border (bpow radix2 (-50)) (q, x) /\ 0 <= f2r x.
Proof.
  intros sq c s at2 k q x H. unfold v_axis in H. rewrite c1_one in H. cbn [a_le a_abs a_sub a_mul ieee x_sqrt ieee_maths] in H. destruct (Bleb (Babs k) f1) eqn:E; [|discriminate]. assert (Hq : q = k) by congruence. assert (Hx : x = fsqrt (fsub f1 (fmul k k))) by congruence. clear H. subst q x.
  split; [reflexivity|]. destruct f1_ok as (F1 & V1).
  assert (Fk : fin k = true /\ Rabs (f2r k) <= 1).
  { assert (N : number (Babs k)) by (intros Q; rewrite Q in E; vm_compute in E; discriminate). pose proof (le64_inv _ _ E) as K. rewrite (key_fin f1), V1 in K by auto.
    destruct k as [t|t| |t m e B]; [split; [reflexivity|unfold f2r; cbn; rewrite Rabs_R0; lra]| |contradiction N; reflexivity|].
    - cbn in K. pose proof (bpow_le radix2 0 1024 ltac:(lia)). change (bpow radix2 0) with 1 in H. pose proof (bpow_lt radix2 0 1024 ltac:(lia)). change (bpow radix2 0) with 1 in H0. lra.
    - split; [reflexivity|]. rewrite key_fin in K by reflexivity. unfold f2r in *. rewrite B2R_Babs in K. exact K. }
  destruct Fk as (Fk & Ak). set (K := f2r k) in *. assert (KK : 0 <= K * K <= 1) by (apply Rabs_le_inv in Ak; split; nra).
  destruct u64_bounds as ((U0 & U1) & EU). pose proof eta64_pos as n0. assert (n1 : eta64 <= / 1024 * u64) by (pose proof (eta_below 1 ltac:(change 1 with (bpow radix2 0); apply bpow_le; lia)); lra).
  destruct (fmul_ok k k Fk Fk) as (Fm & Vm). { fold K. apply big_fin. rewrite Rabs_pos_eq by lra. pose proof (bpow_le radix2 0 1000 ltac:(lia)). change (bpow radix2 0) with 1 in H. lra. }
  fold K in Vm. set (m := f2r (fmul k k)) in *.
  assert (m0 : 0 <= m <= 1). { rewrite Vm. split; [apply b64_nonneg; lra|]. apply b64_le1. lra. }
  assert (M1 : Rabs (m - K * K) <= u64 + eta64). { rewrite Vm. pose proof (near_one (K * K) (proj1 KK)). assert (u64 * (K * K) <= u64 * 1) by (apply Rmult_le_compat_l; lra). lra. }
  destruct (fsub_ok f1 (fmul k k) F1 Fm) as (Fs & Vs). { rewrite V1. fold m. apply big_fin. rewrite Rabs_pos_eq by lra. pose proof (bpow_le radix2 0 1000 ltac:(lia)). change (bpow radix2 0) with 1 in H. lra. }
  rewrite V1 in Vs. fold m in Vs. set (d := f2r (fsub f1 (fmul k k))) in *.
  assert (d0 : 0 <= d <= 1). { rewrite Vs. split; [apply b64_nonneg; lra|]. apply b64_le1. lra. }
  assert (D1 : Rabs (d - (1 - m)) <= u64 + eta64). { rewrite Vs. pose proof (near_one (1 - m) ltac:(lra)). assert (u64 * (1 - m) <= u64 * 1) by (apply Rmult_le_compat_l; lra). lra. }
  destruct (fsqrt_ok _ Fs (proj1 d0)) as (Fr & Vr). fold d in Vr. set (r := sqrt d) in *. assert (r0 : 0 <= r) by apply sqrt_pos. assert (rr : r * r = d) by (apply sqrt_def; lra). assert (r1 : r <= 1) by (destruct (Rle_lt_dec r 1) as [L|L]; [exact L|exfalso; assert (1 * 1 < r * r) by (apply Rmult_le_0_lt_compat; lra); lra]).
  pose proof (near_one r r0) as R1. rewrite <- Vr in R1. set (x := f2r (fsqrt (fsub f1 (fmul k k)))) in *. assert (x0 : 0 <= x) by (rewrite Vr; apply b64_nonneg; lra).
  assert (x1 : x <= 1). { rewrite Vr. apply b64_le1. lra. }
  assert (X1 : Rabs (x * x - d) <= 2 * (u64 + eta64)).
  { rewrite <- rr. replace (x * x - r * r) with ((x - r) * (x + r)) by ring. rewrite Rabs_mult, (Rabs_pos_eq (x + r)) by lra. assert (u64 * r <= u64 * 1) by (apply Rmult_le_compat_l; lra).
    rewrite (Rmult_comm 2). apply Rmult_le_compat; try apply Rabs_pos; lra. }
  assert (T : bpow radix2 (-50) = 8 * u64) by (rewrite EU; change 8 with (bpow radix2 3); rewrite <- bpow_plus; reflexivity).
  split; [|exact x0]. split; [exact Fk|split; [exact Fr|]]. cbn [fst snd]. fold K x. rewrite T. apply Rabs_le_inv in M1. apply Rabs_le_inv in D1. apply Rabs_le_inv in X1. apply Rabs_le. lra.
Qed.

(** ** The point over its norm *)
Lemma root_over : forall n m u0, 0 < u0 <= / 1024 -> 1 < m -> 0 <= n -> Rabs (m - n) <= 7 * u0 * n -> Rabs (n / m - 1) <= 8 * u0 /\ 0 <= n / m <= 1 + 8 * u0.
Proof.
  intros n m u0 U Hm Hn H. set (q := n / m). assert (E : n = q * m) by (unfold q; field; lra). assert (q0 : 0 <= q) by (apply Rmult_le_pos; [lra|left; apply Rinv_0_lt_compat; lra]).
  rewrite E in H. replace (m - q * m) with (m * (1 - q)) in H by ring. replace (7 * u0 * (q * m)) with (m * (7 * u0 * q)) in H by ring. rewrite Rabs_mult, (Rabs_pos_eq m) in H by lra. apply Rmult_le_reg_l in H; [|lra].
  apply Rabs_le_inv in H. assert (q1 : q <= 1 + 8 * u0).
  { destruct (Rle_lt_dec q (1 + 8 * u0)) as [L|L]; [exact L|exfalso]. assert (q - 1 <= 7 * u0 * q) by lra. assert ((1 - 7 * u0) * q <= 1) by lra. assert ((1 - 7 * u0) * (1 + 8 * u0) < (1 - 7 * u0) * q) by (apply Rmult_lt_compat_l; lra).
    assert (56 * (u0 * u0) <= 56 * (/ 1024 * u0)) by (apply Rmult_le_compat_l; [lra|apply Rmult_le_compat_r; lra]). lra. }
  assert (u0 * q <= u0 * (1 + 8 * u0)) by (apply Rmult_le_compat_l; lra). assert (u0 * u0 <= / 1024 * u0) by (apply Rmult_le_compat_r; lra).
  split; [apply Rabs_le; lra|lra].
Qed.
Lemma unit_border : forall sq c s at2 g, let M := ieee_maths sq c s at2 in fin (v_norm ieee M g) = true -> Bleb (v_norm ieee M g) f1 = false -> on_border (bpow radix2 (-48)) (v_unit ieee M g).
Proof.
  intros sq c s at2 (gx & gy) M F L. destruct (norm_near (fun x => fmul x x) c s at2 fmul_square (gx, gy) F) as (Fx & Fy & H). cbn [fst snd] in *.
  change (g_norm ieee (ieee_maths (fun x => fmul x x) c s at2) (gx, gy)) with (v_norm ieee M (gx, gy)) in H. set (v := v_norm ieee M (gx, gy)) in *. destruct f1_ok as (F1 & V1).
  rewrite ble_key in L by (apply fin_number; auto). rewrite !key_fin, V1 in L by auto. rcasesh L; [discriminate|]. set (m := f2r v) in *. set (X := f2r gx) in *. set (Y := f2r gy) in *.
  assert (T0 : 0 <= X * X + Y * Y) by (pose proof (Rle_0_sqr X); pose proof (Rle_0_sqr Y); unfold Rsqr in *; lra). set (n := sqrt (X * X + Y * Y)) in *. assert (n0 : 0 <= n) by apply sqrt_pos. assert (nn : n * n = X * X + Y * Y) by (apply sqrt_def; auto).
  destruct u64_bounds as ((U0 & U1) & EU). pose proof eta64_pos as h0. assert (h1 : eta64 <= / 1024 * u64) by (pose proof (eta_below 1 ltac:(change 1 with (bpow radix2 0); apply bpow_le; lia)); lra).
  assert (e0 : 0 < bpow radix2 (-530) <= / 1024 * u64). { split; [apply bpow_gt_0|]. rewrite EU. change (/ 1024) with (bpow radix2 (-10)). rewrite <- bpow_plus. apply bpow_le. lia. }
  assert (Un : 0 <= u64 * n) by (apply Rmult_le_pos; lra). assert (Un1 : u64 * n <= / 9007199254740992 * n) by (apply Rmult_le_compat_r; lra).
  assert (nh : / 2 <= n) by (apply Rabs_le_inv in H; lra). assert (Uh : u64 * / 2 <= u64 * n) by (apply Rmult_le_compat_l; lra).
  assert (HM : Rabs (m - n) <= 7 * u64 * n) by (apply Rabs_le_inv in H; apply Rabs_le; lra).
  destruct (root_over n m u64 ltac:(lra) ltac:(lra) n0 HM) as (Q1 & Q2). set (q := n / m) in *.
  assert (XY : X / m * (X / m) + Y / m * (Y / m) = q * q) by (unfold q; transitivity ((X * X + Y * Y) / (m * m)); [field; lra|rewrite <- nn; field; lra]).
  assert (Comp : forall g, fin g = true -> f2r g * f2r g <= n * n -> fin (fdiv g v) = true /\ Rabs (f2r (fdiv g v) * f2r (fdiv g v) - f2r g / m * (f2r g / m)) <= 3 * u64).
  { intros g Fg Hg. assert (G : Rabs (f2r g / m) <= 1 + 8 * u64).
    { unfold Rdiv. rewrite Rabs_mult, (Rabs_pos_eq (/ m)) by (left; apply Rinv_0_lt_compat; lra). apply Rle_trans with (n * / m); [|exact (proj2 Q2)]. apply Rmult_le_compat_r; [left; apply Rinv_0_lt_compat; lra|].
      rewrite <- (Rabs_pos_eq n) by auto. apply Rsqr_le_abs_0. exact Hg. }
    destruct (fdiv_ok g v Fg) as (Fd & Vd); [fold m; lra|fold m; apply big_fin; pose proof (bpow_le radix2 1 1000 ltac:(lia)) as B; change (bpow radix2 1) with 2 in B; lra|]. fold m in Vd. split; [exact Fd|].
    pose proof (b64_near _ _ G) as N. rewrite <- Vd in N. set (w := f2r (fdiv g v)) in *. set (z := f2r g / m) in *. assert (UU : u64 * (1 + 8 * u64) <= u64 * (1 + / 512)) by (apply Rmult_le_compat_l; lra).
    replace (w * w - z * z) with ((w - z) * (w + z)) by ring. rewrite Rabs_mult. apply Rle_trans with (129 / 128 * u64 * (9 / 4)); [|lra]. apply Rmult_le_compat; try apply Rabs_pos; [lra|].
    apply Rabs_le_inv in N. apply Rabs_le_inv in G. apply Rabs_le. lra. }
  pose proof (Rle_0_sqr X) as X2. pose proof (Rle_0_sqr Y) as Y2. unfold Rsqr in X2, Y2.
  destruct (Comp gx Fx) as (Fa & Ha); [fold X; lra|]. destruct (Comp gy Fy) as (Fb & Hb); [fold Y; lra|]. fold X in Ha. fold Y in Hb.
  assert (QQ : Rabs (q * q - 1) <= 17 * u64).
  { replace (q * q - 1) with ((q - 1) * (q + 1)) by ring. rewrite Rabs_mult, (Rabs_pos_eq (q + 1)) by lra. apply Rle_trans with (8 * u64 * (2 + / 16)); [|lra]. apply Rmult_le_compat; try apply Rabs_pos; lra. }
  assert (T : bpow radix2 (-48) = 32 * u64) by (rewrite EU; change 32 with (bpow radix2 5); rewrite <- bpow_plus; reflexivity).
  split; [exact Fa|split; [exact Fb|]]. rewrite T. unfold v_unit. cbn [fst snd a_div ieee]. fold v. apply Rabs_le_inv in Ha. apply Rabs_le_inv in Hb. apply Rabs_le_inv in QQ. apply Rabs_le. lra.
Qed.
