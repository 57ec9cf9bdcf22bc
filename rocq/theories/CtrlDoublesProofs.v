(** Speed limits in binary64. *)
From Coq Require Import String Reals ZArith List Bool Lia Lra.
From Flocq Require Import Core IEEE754.BinarySingleNaN.
From Verif Require Import Prelude Rounding RoundedGen RoundedGenSpec RoundedGenProofs2 RoundedGenProofs3 Controllers ControlSpec
  Doubles DoublesGen DoublesSpec DoublesProofs DoublesProofs2 CtrlDoubles CtrlDoublesSpec.
Import ListNotations.
Open Scope R_scope.

(** Results that overflow are put at the ends. *)
Definition clamp (r : R) : R := Rmax (- bpow radix2 1024) (Rmin (bpow radix2 1024) r).
Lemma clamp_in : forall r, - bpow radix2 1024 <= r <= bpow radix2 1024 -> clamp r = r.
Proof. intros r H. unfold clamp. rewrite Rmin_right by lra. apply Rmax_right. lra. Qed.
Lemma clamp_mono : forall r s, r <= s -> clamp r <= clamp s.
Proof. intros r s H. unfold clamp, Rmax, Rmin. repeat destruct (Rle_dec _ _); lra. Qed.
Lemma clamp_opp : forall r, clamp (- r) = - clamp r.
Proof. intros r. pose proof inf_pos. unfold clamp, Rmax, Rmin. repeat destruct (Rle_dec _ _); lra. Qed.
Lemma clamp_low : forall r, bpow radix2 1024 <= r -> clamp r = bpow radix2 1024.
Proof. intros r H. pose proof inf_pos. unfold clamp. rewrite Rmin_left by lra. apply Rmax_right. lra. Qed.

Lemma sign_true : forall x : f64, Bsign x = true -> f2r x <= 0.
Proof. intros [s|s| |s m e H] Q; simpl in Q; try (unfold f2r; simpl; lra). subst s. unfold f2r. simpl. apply F2R_le_0. simpl. lia. Qed.
Lemma sign_false : forall x : f64, Bsign x = false -> 0 <= f2r x.
Proof. intros [s|s| |s m e H] Q; simpl in Q; try (unfold f2r; simpl; lra). subst s. unfold f2r. simpl. apply F2R_ge_0. simpl. lia. Qed.
Lemma over_key : forall (x : f64) (s : bool) r, B2SF x = binary_overflow 53 1024 mode_NE s -> ~ (Rabs r < bpow radix2 1024) ->
  (s = true -> r <= 0) -> (s = false -> 0 <= r) -> number x /\ key x = clamp r.
Proof.
  intros x s r Q O H1 H2. apply not_fin in Q. destruct Q as (_ & ->). split; [destruct s; discriminate|]. pose proof inf_pos as P.
  apply Rnot_lt_le in O. destruct s; cbn [key].
  - specialize (H1 eq_refl). rewrite Rabs_left1 in O by lra. rewrite <- (Ropp_involutive r), clamp_opp, clamp_low by lra. reflexivity.
  - specialize (H2 eq_refl). rewrite Rabs_pos_eq in O by lra. rewrite clamp_low; auto.
Qed.
Lemma b64_neg : forall x, x <= 0 -> b64 x <= 0.
Proof. intros x H. pose proof (r_opp _ b64_rounding (- x)) as Q. rewrite Ropp_involutive in Q. pose proof (rnd_nonneg _ b64_rounding (- x)). rewrite Q. lra. Qed.
Lemma key_mul : forall x y, fin x = true -> fin y = true -> number (fmul x y) /\ key (fmul x y) = clamp (b64 (f2r x * f2r y)).
Proof.
  intros x y Fx Fy. pose proof (Bmult_correct 53 1024 prec64 emax64 mode_NE x y) as Q. fold (fmul x y) in Q. rewrite <- !b64_eq in Q.
  change (B2R x) with (f2r x) in Q. change (B2R y) with (f2r y) in Q.
  destruct (Rlt_bool_spec (Rabs (b64 (f2r x * f2r y))) (bpow radix2 1024)) as [L|L].
  - destruct Q as (Q1 & Q2 & _). assert (F : fin (fmul x y) = true) by (unfold fin in *; rewrite Q2, Fx, Fy; auto).
    split; [apply fin_number; auto|]. rewrite key_fin by auto. change (f2r (fmul x y)) with (B2R (fmul x y)). rewrite Q1. symmetry. apply clamp_in. apply Rabs_le_inv. lra.
  - eapply over_key; [exact Q|lra| |].
    + intros E. apply b64_neg. destruct (Bsign x) eqn:X, (Bsign y) eqn:Y; try discriminate;
        [apply sign_true in X; apply sign_false in Y|apply sign_false in X; apply sign_true in Y]; nra.
    + intros E. apply (rnd_nonneg _ b64_rounding). destruct (Bsign x) eqn:X, (Bsign y) eqn:Y; try discriminate;
        [apply sign_true in X; apply sign_true in Y|apply sign_false in X; apply sign_false in Y]; nra.
Qed.
Lemma f2r_opp : forall x, f2r (fopp x) = - f2r x.
Proof. intros x. apply B2R_Bopp. Qed.
Lemma fin_opp : forall x, fin (fopp x) = fin x.
Proof. intros x. apply is_finite_Bopp. Qed.
Lemma key_opp : forall x, key (fopp x) = - key x.
Proof.
  intros x. destruct x as [z|z| |z m e H].
  - change (f2r (fopp (B754_zero z)) = - f2r (B754_zero z)). apply f2r_opp.
  - destruct z; cbn; lra.
  - change (f2r (fopp B754_nan) = - f2r B754_nan). apply f2r_opp.
  - change (f2r (fopp (B754_finite z m e H)) = - f2r (B754_finite z m e H)). apply f2r_opp.
Qed.
Lemma num_opp : forall x, number x -> number (fopp x).
Proof. intros [s|s| |s m e H] N; try discriminate. auto. Qed.

(** Saturation. *)
Lemma sat3 : forall x pos neg, number x -> number pos -> number neg -> 0 <= key pos -> key neg <= key pos ->
  let r := d_saturate3 ieee x pos neg in
  number r /\ key neg <= key r <= key pos /\ (key neg <= key x <= key pos -> r = x) /\ (r = x \/ r = pos \/ (r = neg /\ key x < key neg)).
Proof.
  intros x pos neg Nx Np Nn P Q r. subst r. unfold d_saturate3. rewrite c0_zero. cbn [a_lt ieee].
  rewrite !blt_key by (auto; apply num0). rewrite key_0.
  assert (E : Rltb (key pos) 0 || Rltb (key pos) (key neg) = false) by (apply orb_false_iff; split; rcases; auto; lra). rewrite E.
  destruct (Rltb (key pos) (key x)) eqn:A; [apply Rltb_true in A|apply Rltb_false in A].
  - repeat split; auto; try lra.
  - destruct (Rltb (key x) (key neg)) eqn:B; [apply Rltb_true in B|apply Rltb_false in B]; repeat split; auto; try lra.
Qed.
Lemma sat2 : forall sq c s at2 x lim, number x -> number lim -> 0 <= key lim ->
  let r := d_saturate2 ieee (ieee_maths sq c s at2) x lim in
  number r /\ - key lim <= key r <= key lim /\ (- key lim <= key x <= key lim -> r = x) /\ (r = x \/ r = lim \/ (r = fopp lim /\ key x < - key lim)).
Proof.
  intros sq c s at2 x lim Nx Nl P r. subst r. unfold d_saturate2. cbn [x_opp ieee_maths].
  pose proof (sat3 x lim (fopp lim) Nx Nl (num_opp _ Nl) P) as K. rewrite key_opp in K. apply K. lra.
Qed.

(** Square root. *)
Lemma fsqrt_ok : forall x, fin x = true -> 0 <= f2r x -> fin (fsqrt x) = true /\ f2r (fsqrt x) = b64 (sqrt (f2r x)).
Proof.
  intros x F P. pose proof (Bsqrt_correct 53 1024 prec64 emax64 mode_NE x) as Q. fold (fsqrt x) in Q. rewrite <- !b64_eq in Q.
  destruct Q as (Q1 & Q2 & _). split; [|exact Q1]. unfold fin. rewrite Q2. destruct x as [s|s| |[] m e H]; auto; try discriminate.
  exfalso. unfold f2r in P. simpl in P. assert (F2R (Float radix2 (Zneg m) e) < 0) by (apply F2R_lt_0; simpl; lia). lra.
Qed.

Section Speed.
Variables (S : field -> f64) (w : f64).
Hypothesis FL : fin (S q_satLin) = true.
Hypothesis L0 : 0 <= f2r (S q_satLin).
Hypothesis FT : fin (S q_turn) = true.
Hypothesis T0 : 0 <= f2r (S q_turn).
Hypothesis FW : fin w = true.
Hypothesis W : Rabs (f2r w) <= bpow radix2 511.
Variables (sq c s : f64 -> f64) (at2 : f64 -> f64 -> f64).
Let M := ieee_maths sq c s at2.

Lemma square_ok : fin (fmul w w) = true /\ f2r (fmul w w) = b64 (f2r w * f2r w) /\ 0 <= f2r (fmul w w).
Proof.
  destruct (fmul_ok w w FW FW) as (F & V).
  - rewrite Rabs_mult. apply Rle_trans with (bpow radix2 511 * bpow radix2 511); [apply Rmult_le_compat; auto; apply Rabs_pos|].
    rewrite <- bpow_plus. eapply Rle_trans; [|apply pow_top]. apply bpow_le. lia.
  - split; auto. split; auto. rewrite V. apply (rnd_nonneg _ b64_rounding). apply Rle_0_sqr.
Qed.
Lemma root_ok : fin (fsqrt (fmul w w)) = true /\ f2r (fsqrt (fmul w w)) = b64 (sqrt (b64 (f2r w * f2r w))) /\ 0 <= f2r (fsqrt (fmul w w)).
Proof.
  destruct square_ok as (F & V & P). destruct (fsqrt_ok _ F P) as (F2 & V2). rewrite V2, V. split; auto. split; auto.
  apply (rnd_nonneg _ b64_rounding), sqrt_pos.
Qed.
(** The divisor is at least 1. *)
Definition divisor : f64 := fadd f1 (fmul (S q_turn) (fsqrt (fmul w w))).
Lemma divisor_ok : divisor = finf \/ (fin divisor = true /\ 1 <= f2r divisor
  /\ f2r divisor = b64 (1 + b64 (f2r (S q_turn) * f2r (fsqrt (fmul w w))))).
Proof.
  unfold divisor. destruct root_ok as (FR & VR & PR). set (q := fsqrt (fmul w w)) in *. destruct (key_mul (S q_turn) q FT FR) as (Np & Kp).
  assert (P0 : 0 <= b64 (f2r (S q_turn) * f2r q)) by (apply (rnd_nonneg _ b64_rounding), Rmult_le_pos; auto).
  destruct f1_ok as (F1 & V1).
  assert (K0 : 0 <= key (fmul (S q_turn) q)). { rewrite Kp. replace 0 with (clamp 0) by (apply clamp_in; pose proof inf_pos; lra). apply clamp_mono. lra. }
  destruct (number_cases _ Np) as [Fp|[Ep|Ep]].
  - rewrite key_fin in K0 by auto. pose proof (fmul_fin _ _ Fp) as Vp. set (p := fmul (S q_turn) q) in *.
    pose proof (Bplus_correct 53 1024 prec64 emax64 mode_NE f1 p F1 Fp) as Q. fold (fadd f1 p) in Q. rewrite <- !b64_eq in Q.
    change (B2R f1) with (f2r f1) in Q. change (B2R p) with (f2r p) in Q. rewrite V1 in Q.
    assert (G : 1 <= b64 (1 + f2r p)) by (rewrite <- (rnd_1 _ b64_rounding) at 1; apply (r_mono _ b64_rounding); lra).
    destruct (Rlt_bool_spec (Rabs (b64 (1 + f2r p))) (bpow radix2 1024)) as [L|L].
    + right. destruct Q as (Q1 & Q2 & _). change (f2r (fadd f1 p)) with (B2R (fadd f1 p)). rewrite Q1, <- Vp. auto.
    + left. destruct Q as (Q & _). apply not_fin in Q. destruct Q as (_ & ->).
      destruct (Bsign f1) eqn:Z; auto. apply sign_true in Z. rewrite V1 in Z. lra.
  - left. rewrite Ep. apply same_f64. vm_compute. reflexivity.
  - exfalso. rewrite Ep in K0. cbn [key] in K0. pose proof inf_pos. lra.
Qed.
Lemma speed_ok : let v := d_speed ieee M S w in fin v = true /\ 0 <= f2r v <= f2r (S q_satLin)
  /\ (f2r v = 0 \/ (fin divisor = true /\ f2r v = b64 (f2r (S q_satLin) / f2r divisor))).
Proof.
  intros v. subst v. unfold d_speed. cbn [a_div a_add a_mul ieee x_sqrt M ieee_maths]. rewrite c1_one. fold divisor.
  destruct divisor_ok as [-> | (F & G & V)].
  - assert (Q : fin (fdiv (S q_satLin) finf) = true /\ f2r (fdiv (S q_satLin) finf) = 0).
    { destruct (S q_satLin) as [z|z| |z m e H]; try discriminate; split; vm_compute; reflexivity. }
    destruct Q as (Q1 & Q2). rewrite Q2. auto with real.
  - assert (G0 : 0 <= f2r (S q_satLin) / f2r divisor <= f2r (S q_satLin)).
    { unfold Rdiv. assert (0 < / f2r divisor) by (apply Rinv_0_lt_compat; lra). assert (/ f2r divisor <= 1) by (rewrite <- Rinv_1; apply Rinv_le_contravar; lra).
      split; [apply Rmult_le_pos; lra|]. rewrite <- (Rmult_1_r (f2r (S q_satLin))) at 2. apply Rmult_le_compat_l; lra. }
    destruct (fdiv_ok (S q_satLin) divisor FL) as (Fv & Vv); [lra| |].
    + rewrite Rabs_pos_eq by lra. eapply Rle_trans; [apply G0|apply le_top].
    + split; auto. rewrite Vv. split; [|right; auto]. split; [apply (rnd_nonneg _ b64_rounding); lra|]. rewrite <- (f2r_fix (S q_satLin)). apply (r_mono _ b64_rounding). rewrite f2r_fix. lra.
Qed.

(** How close the limit is to the documented one. *)
Lemma sqrt_near : forall a y r u0 e n, 0 <= a -> 0 <= r -> r * r = y -> Rabs (y - a * a) <= u0 * (a * a) + n -> 0 <= u0 <= 1 -> 0 <= e -> n <= e * e -> Rabs (r - a) <= u0 * a + e.
Proof.
  intros a y r u0 e n Ha Hr Hy Hn (U0 & U1) He Hne. apply Rabs_le_inv in Hn. apply Rabs_le. assert (Q : 0 <= u0 * a) by (apply Rmult_le_pos; auto). split.
  - apply Rnot_lt_le. intros C. set (b := a - u0 * a - e) in *. assert (B : r < b) by (unfold b; lra).
    assert (r * r < b * b) by (apply Rmult_le_0_lt_compat; lra).
    assert (b * b <= (a - u0 * a) * (a - u0 * a) - e * e). { unfold b in *. set (c1 := a - u0 * a) in *. assert (e < c1) by lra. assert (e * e <= e * c1) by (apply Rmult_le_compat_l; lra). lra. }
    assert ((a - u0 * a) * (a - u0 * a) <= (a - u0 * a) * a) by (apply Rmult_le_compat_l; lra). lra.
  - apply Rnot_lt_le. intros C. set (b := a + u0 * a + e) in *. assert (B : b < r) by (unfold b; lra).
    assert (b * b < r * r) by (apply Rmult_le_0_lt_compat; unfold b in *; lra).
    assert (a * a + u0 * (a * a) + e * e <= b * b). { unfold b. assert (0 <= a * (u0 * a)) by (apply Rmult_le_pos; auto). assert (0 <= a * e) by (apply Rmult_le_pos; auto). assert (0 <= u0 * a * e) by (apply Rmult_le_pos; auto). assert (0 <= u0 * a * (u0 * a)) by (apply Rmult_le_pos; auto). lra. }
    lra.
Qed.
Lemma small_powers : 0 < bpow radix2 (-530) /\ eta64 <= bpow radix2 (-530) * bpow radix2 (-530) /\ eta64 <= bpow radix2 (-530)
  /\ bpow radix2 400 * bpow radix2 (-530) <= u64 * / 16 /\ eta64 <= u64 * / 16.
Proof.
  split; [apply bpow_gt_0|]. unfold eta64, u64. rewrite <- !bpow_plus. simpl Z.add. change (/ 16) with (bpow radix2 (-4)).
  assert (A : / 2 = bpow radix2 (-1)) by reflexivity. rewrite !A. rewrite <- !bpow_plus. simpl Z.add. repeat split; apply bpow_le; lia.
Qed.
Lemma speed_near : f2r (S q_turn) <= bpow radix2 400 -> let v := d_speed ieee M S w in
  let V := turning_speed (f2r (S q_satLin)) (f2r (S q_turn)) (f2r w) in Rabs (f2r v - V) <= bpow radix2 (-49) * V + eta64.
Proof.
  intros HT v V. destruct root_ok as (FR & VR & PR). set (q := fsqrt (fmul w w)) in *. set (T := f2r (S q_turn)) in *. set (L := f2r (S q_satLin)) in *.
  set (a := Rabs (f2r w)) in *. destruct small_powers as (e0 & e1 & e2 & e3 & e4). set (e := bpow radix2 (-530)) in *. pose proof eta64_pos as n0.
  assert (Ha : 0 <= a) by apply Rabs_pos. assert (Sq : f2r w * f2r w = a * a) by (unfold a; rewrite <- Rabs_mult, Rabs_pos_eq; auto; apply Rle_0_sqr).
  assert (U : 0 <= u64 <= / 9007199254740992) by (rewrite u64_val; lra).
  rewrite Sq in VR. assert (Qa : 0 <= a * a) by (apply Rmult_le_pos; auto).
  assert (N1 : Rabs (b64 (a * a) - a * a) <= u64 * (a * a) + eta64) by (apply b64_near; rewrite Rabs_pos_eq; lra).
  assert (P1 : 0 <= b64 (a * a)) by (apply (rnd_nonneg _ b64_rounding); auto).
  assert (N2 : Rabs (sqrt (b64 (a * a)) - a) <= u64 * a + e).
  { apply (sqrt_near a (b64 (a * a)) _ u64 e eta64); auto; try lra; [apply sqrt_pos|apply sqrt_def; auto]. }
  set (r := sqrt (b64 (a * a))) in *. assert (r0 : 0 <= r) by apply sqrt_pos.
  assert (N3 : Rabs (f2r q - r) <= u64 * r + eta64) by (rewrite VR; apply b64_near; rewrite Rabs_pos_eq; lra).
  apply Rabs_le_inv in N2. apply Rabs_le_inv in N3.
  assert (Ua : 0 <= u64 * a) by (apply Rmult_le_pos; lra). assert (Ur : u64 * r <= u64 * (a + (u64 * a + e))) by (apply Rmult_le_compat_l; lra).
  assert (Uu : u64 * (u64 * a) <= u64 * a) by (assert (u64 * (u64 * a) <= 1 * (u64 * a)) by (apply Rmult_le_compat_r; lra); lra).
  assert (Ue : u64 * e <= e) by (assert (u64 * e <= 1 * e) by (apply Rmult_le_compat_r; lra); lra).
  assert (Nq : Rabs (f2r q - a) <= 3 * (u64 * a) + 3 * e) by (apply Rabs_le; lra).
  assert (NT : Rabs (T * f2r q - T * a) <= 3 * (u64 * (T * a)) + 3 / 16 * u64).
  { rewrite <- Rmult_minus_distr_l, Rabs_mult, (Rabs_pos_eq T) by auto.
    apply Rle_trans with (T * (3 * (u64 * a) + 3 * e)); [apply Rmult_le_compat_l; auto|].
    assert (T * e <= bpow radix2 400 * e) by (apply Rmult_le_compat_r; lra). lra. }
  set (d := T * a) in *. assert (d0 : 0 <= d) by (apply Rmult_le_pos; auto). assert (Ud : 0 <= u64 * d) by (apply Rmult_le_pos; lra).
  assert (Ud' : u64 * d <= / 9007199254740992 * d) by (apply Rmult_le_compat_r; lra).
  assert (Tq : 0 <= T * f2r q) by (apply Rmult_le_pos; auto).
  set (p := b64 (T * f2r q)) in *. assert (p0 : 0 <= p) by (apply (rnd_nonneg _ b64_rounding); auto).
  apply Rabs_le_inv in NT.
  assert (N4 : Rabs (p - T * f2r q) <= u64 * (2 * d + 1) + eta64) by (apply b64_near; rewrite Rabs_pos_eq; lra). apply Rabs_le_inv in N4.
  destruct divisor_ok as [E|(Fd & Gd & Vd)].
  - exfalso. unfold divisor in E. fold q in E. destruct f1_ok as (F1 & V1).
    assert (Bd : d <= bpow radix2 911). { unfold d. replace (bpow radix2 911) with (bpow radix2 400 * bpow radix2 511) by (rewrite <- bpow_plus; reflexivity). apply Rmult_le_compat; auto. }
    assert (B2 : 4 * bpow radix2 911 + 10 <= top).
    { eapply Rle_trans; [|apply pow_top]. assert (8 * bpow radix2 911 <= bpow radix2 1023) by (change 8 with (bpow radix2 3); rewrite <- bpow_plus; apply bpow_le; lia).
      assert (bpow radix2 4 <= bpow radix2 911) by (apply bpow_le; lia). change (bpow radix2 4) with 16 in *. lra. }
    destruct (fmul_ok (S q_turn) q FT FR) as (Fp & Vp); [fold T; rewrite Rabs_pos_eq; lra|]. fold T in Vp. fold p in Vp.
    destruct (fadd_ok f1 (fmul (S q_turn) q) F1 Fp) as (Fs & _); [rewrite V1, Vp, Rabs_pos_eq; lra|]. rewrite E in Fs. discriminate.
  - fold q T in Vd. fold p in Vd. set (s0 := f2r divisor) in *.
    assert (N5 : Rabs (s0 - (1 + p)) <= u64 * (1 + p) + eta64) by (rewrite Vd; apply b64_near; rewrite Rabs_pos_eq; lra). apply Rabs_le_inv in N5.
    assert (Up : u64 * p <= u64 * (2 * d + 2)) by (apply Rmult_le_compat_l; lra).
    assert (Ns : Rabs (s0 - (1 + d)) <= 8 * u64 * (1 + d)) by (apply Rabs_le; lra).
    assert (D1 : 0 < 1 + d) by lra. assert (I1 : 0 < / (1 + d)) by (apply Rinv_0_lt_compat; auto). assert (I2 : 0 < / s0) by (apply Rinv_0_lt_compat; lra).
    assert (EV : V = L * / (1 + d)) by (unfold V, turning_speed; fold a d; reflexivity).
    apply Rabs_le_inv in Ns.
    assert (NI : Rabs (/ s0 - / (1 + d)) <= 10 * u64 * / (1 + d)).
    { replace (/ s0 - / (1 + d)) with ((1 + d - s0) * (/ s0 * / (1 + d))) by (field; lra). rewrite Rabs_mult, (Rabs_pos_eq (/ s0 * / (1 + d))) by (apply Rmult_le_pos; lra).
      assert (/ s0 <= (10 / 8) * / (1 + d)).
      { apply Rmult_le_reg_r with s0; [lra|]. rewrite Rinv_l by lra. apply Rmult_le_reg_r with (1 + d); auto. replace (10 / 8 * / (1 + d) * s0 * (1 + d)) with (10 / 8 * s0) by (field; lra).
        assert (8 * u64 * (1 + d) <= 8 * / 9007199254740992 * (1 + d)) by (apply Rmult_le_compat_r; lra). lra. }
      apply Rle_trans with (8 * u64 * (1 + d) * (10 / 8 * / (1 + d) * / (1 + d))).
      - apply Rmult_le_compat; [apply Rabs_pos|apply Rmult_le_pos; lra|apply Rabs_le; lra|apply Rmult_le_compat_r; lra].
      - right. field. lra. }
    assert (NL : Rabs (L / s0 - V) <= 10 * u64 * V).
    { rewrite EV. unfold Rdiv. rewrite <- Rmult_minus_distr_l, Rabs_mult, (Rabs_pos_eq L) by auto.
      apply Rle_trans with (L * (10 * u64 * / (1 + d))); [apply Rmult_le_compat_l; auto|]. lra. }
    assert (V0 : 0 <= V) by (rewrite EV; apply Rmult_le_pos; lra). assert (UV : 0 <= u64 * V <= / 9007199254740992 * V) by (split; [apply Rmult_le_pos; lra|apply Rmult_le_compat_r; lra]).
    assert (L1 : 0 <= L / s0) by (apply Rmult_le_pos; lra).
    change (bpow radix2 (-49)) with (/ 562949953421312). apply Rabs_le_inv in NL.
    assert (U16 : / 562949953421312 * V = 16 * (u64 * V)) by (rewrite u64_val; field). rewrite U16.
    assert (G : f2r v = b64 (L / s0)).
    { destruct (speed_ok) as (Fv & _ & _). fold v in Fv. change v with (fdiv (S q_satLin) (fadd (c1 ieee) (fmul (S q_turn) q))) in *. rewrite c1_one in *. apply fdiv_fin; auto. change (s0 <> 0). lra. }
    assert (N6 : Rabs (f2r v - L / s0) <= u64 * (V + V) + eta64) by (rewrite G; apply b64_near; rewrite Rabs_pos_eq; lra).
    apply Rabs_le_inv in N6. apply Rabs_le. lra.
Qed.
End Speed.

(** ** Settings *)
Lemma below_args : forall x, number x -> below0 ieee x = match arg64 x with Some _ => false | None => true end.
Proof.
  intros x N. unfold below0, arg64. rewrite c0_zero. cbn [a_lt ieee]. rewrite blt_key, ble_key by (auto; apply num0). rewrite key_0. rcases; auto; lra.
Qed.
Lemma arg_value : forall x y, arg64 x = Some y -> y = x /\ le64 fzero x.
Proof. intros x y. unfold arg64, le64. destruct (Bleb fzero x); intros H; inversion H; auto. Qed.
Ltac onefield :=
  intros l; unfold settings; generalize (initv ieee); induction l as [|c l IH]; intros s H; [reflexivity|];
  inversion H as [|x y (T & _) H1]; subst x y; cbn [fold_left last_of]; rewrite IH by auto; f_equal; clear IH;
  destruct c; cbn [setv args] in *;
  repeat match goal with |- context [if ?b then _ else _] => lazymatch b with field_eq_dec _ _ => fail | _ => idtac end;
    match b with below0 ieee ?x => rewrite (below_args x) by (apply T; simpl; auto); destruct (arg64 x) eqn:? | _ => destruct b end end;
  cbn [fst]; try reflexivity; try (match goal with X : arg64 _ = Some _ |- _ => apply arg_value in X; destruct X as (-> & _); reflexivity end).
Lemma turn_settings : forall l, List.Forall tame l -> settings ieee l q_turn = last_of (fun c => match c with sTurn x => arg64 x | _ => None end) (initv ieee q_turn) l.
Proof. onefield. Qed.
Lemma back_settings : forall l, List.Forall tame l -> settings ieee l q_back = last_of (fun c => match c with sBack x => arg64 x | _ => None end) (initv ieee q_back) l.
Proof. onefield. Qed.
Lemma side_settings : forall l, List.Forall tame l -> settings ieee l q_side = last_of (fun c => match c with sSide x => arg64 x | _ => None end) (initv ieee q_side) l.
Proof. onefield. Qed.
Lemma factor_settings : forall l, List.Forall tame l ->
  settings ieee l q_turn = turn64 l /\ settings ieee l q_back = back64 l /\ settings ieee l q_side = side64 l.
Proof.
  intros l H. rewrite turn_settings, back_settings, side_settings by auto. unfold turn64, back64, side64. cbn [initv]. rewrite c0_zero, c1_one. auto.
Qed.
Lemma sat_settings : forall l lin ang, List.Forall tame l -> sat64 l = Some (lin, ang) ->
  settings ieee l q_satLin = lin /\ settings ieee l q_satAng = ang /\ le64 fzero lin /\ le64 fzero ang.
Proof.
  intros l lin ang H E. unfold settings, sat64 in *.
  assert (Q : forall s o, match o with Some (x, y) => s q_satLin = x /\ s q_satAng = y /\ le64 fzero x /\ le64 fzero y | None => True end ->
    match last_of (fun c => match c with sSat x y => match arg64 x, arg64 y with Some x, Some y => Some (Some (x, y)) | _, _ => None end | _ => None end) o l with
    | Some (x, y) => fold_left (fun s c => fst (setv ieee c s)) l s q_satLin = x /\ fold_left (fun s c => fst (setv ieee c s)) l s q_satAng = y /\ le64 fzero x /\ le64 fzero y | None => True end).
  { clear E. induction H as [|c l (T & _) H1 IH]; intros s o K; [exact K|]. cbn [fold_left last_of]. apply IH. clear IH H1.
    destruct c; cbn [setv args] in *;
    repeat match goal with |- context [if ?b then _ else _] => lazymatch b with field_eq_dec _ _ => fail | _ => idtac end;
      match b with below0 ieee ?x || below0 ieee ?y => rewrite (below_args x), (below_args y) by (apply T; simpl; auto); destruct (arg64 x) eqn:?, (arg64 y) eqn:?; cbn [orb] | _ => destruct b end end;
    cbn [fst]; try exact K.
    destruct (arg_value _ _ Heqo0) as (-> & A1). destruct (arg_value _ _ Heqo1) as (-> & A2). auto. }
  specialize (Q (initv ieee) None I). rewrite E in Q. exact Q.
Qed.
Lemma factors_nonneg : forall l, List.Forall tame l -> 0 <= key (turn64 l) /\ 0 <= key (back64 l) /\ 0 <= key (side64 l)
  /\ number (turn64 l) /\ number (back64 l) /\ number (side64 l).
Proof.
  intros l H. destruct (factor_settings l H) as (E1 & E2 & E3). destruct (valid_history l H) as [? ? ? ? ? ? ? ? ? ? ? (V1 & V2 & V3) ? ? ? ? ? ? ? ? ?].
  rewrite E1 in V1. rewrite E2 in V2. rewrite E3 in V3.
  pose proof (le64_inv _ _ V1). pose proof (le64_inv _ _ V2). pose proof (le64_inv _ _ V3). rewrite key_0 in *.
  pose proof (le64_number _ _ V1). pose proof (le64_number _ _ V2). pose proof (le64_number _ _ V3). tauto.
Qed.

Section Control.
Variables (l : list (setter f64)) (lin ang : f64) (raw : dcmd f64).
Variables (sq c s : f64 -> f64) (at2 : f64 -> f64 -> f64).
Let M := ieee_maths sq c s at2.
Let out := d_control ieee M (settings ieee l) raw.
Hypothesis T : List.Forall tame l.
Hypothesis Q : sat64 l = Some (lin, ang).

Lemma angular_ok : number (d_ang raw) -> number (d_ang out) /\ - key ang <= key (d_ang out) <= key ang
  /\ (- key ang <= key (d_ang raw) <= key ang -> d_ang out = d_ang raw).
Proof.
  intros N. destruct (sat_settings l lin ang T Q) as (E1 & E2 & L1 & L2). unfold out, d_control. cbn [d_ang]. rewrite E2.
  pose proof (le64_inv _ _ L2) as K. rewrite key_0 in K. destruct (sat2 sq c s at2 (d_ang raw) ang N (proj2 (le64_number _ _ L2)) K) as (A & B & C & _). auto.
Qed.
Hypothesis MD : moderate lin ang (turn64 l) (back64 l) (side64 l).
Lemma lateral_ok : number (d_lat raw) -> let lim := fmul (side64 l) lin in number lim /\ 0 <= key lim /\ number (d_lat out) /\ - key lim <= key (d_lat out) <= key lim
  /\ (- key lim <= key (d_lat raw) <= key lim -> d_lat out = d_lat raw).
Proof.
  intros N lim. destruct (sat_settings l lin ang T Q) as (E1 & E2 & L1 & L2). destruct (factor_settings l T) as (F1 & F2 & F3).
  destruct MD as (A1 & A2 & A3 & A4 & A5). destruct (factors_nonneg l T) as (K1 & K2 & K3 & _). rewrite key_fin in K3 by auto.
  pose proof (le64_inv _ _ L1) as K. rewrite key_0, key_fin in K by auto.
  destruct (key_mul (side64 l) lin A4 A1) as (Nm & Km). assert (P : 0 <= key lim).
  { unfold lim. rewrite Km. replace 0 with (clamp 0) by (apply clamp_in; pose proof inf_pos; lra). apply clamp_mono, (rnd_nonneg _ b64_rounding), Rmult_le_pos; auto. }
  unfold out, d_control. cbn [d_lat a_mul ieee]. rewrite E1, F3. destruct (sat2 sq c s at2 (d_lat raw) lim N Nm P) as (A & B & C & _). auto 7.
Qed.
Lemma forward_ok : number (d_fwd raw) -> number (d_ang raw) ->
  let v := d_speed ieee M (settings ieee l) (d_ang out) in let neg := fmul (fopp (back64 l)) v in
  fin v = true /\ 0 <= f2r v <= f2r lin /\ number neg /\ key neg = - clamp (b64 (f2r (back64 l) * f2r v)) /\ number (d_fwd out) /\ key neg <= key (d_fwd out) <= f2r v
  /\ (key neg <= key (d_fwd raw) <= f2r v -> d_fwd out = d_fwd raw) /\ (fin (d_fwd raw) = true -> fin (d_fwd out) = true)
  /\ (f2r (turn64 l) <= bpow radix2 400 -> let V := turning_speed (f2r lin) (f2r (turn64 l)) (f2r (d_ang out)) in Rabs (f2r v - V) <= bpow radix2 (-49) * V + eta64).
Proof.
  intros N Na v neg. destruct (sat_settings l lin ang T Q) as (E1 & E2 & L1 & L2). destruct (factor_settings l T) as (F1 & F2 & F3).
  destruct MD as (A1 & A2 & A3 & A4 & A5 & A6). destruct (factors_nonneg l T) as (K1 & K2 & K3 & _). rewrite key_fin in K1, K2 by auto.
  pose proof (le64_inv _ _ L1) as K. rewrite key_0, key_fin in K by auto.
  destruct (angular_ok Na) as (W1 & W2 & _). rewrite (key_fin ang) in W2 by auto.
  assert (FW : fin (d_ang out) = true).
  { destruct (number_cases _ W1) as [F|[F|F]]; auto; rewrite F in W2; cbn [key finf] in W2; exfalso;
      assert (bpow radix2 511 < bpow radix2 1024) by (apply bpow_lt; lia); lra. }
  rewrite key_fin in W2 by auto. assert (W : Rabs (f2r (d_ang out)) <= bpow radix2 511) by (apply Rabs_le; lra).
  assert (B1 : fin (settings ieee l q_satLin) = true) by (rewrite E1; auto). assert (B2 : 0 <= f2r (settings ieee l q_satLin)) by (rewrite E1; auto).
  assert (B3 : fin (settings ieee l q_turn) = true) by (rewrite F1; auto). assert (B4 : 0 <= f2r (settings ieee l q_turn)) by (rewrite F1; auto).
  destruct (speed_ok (settings ieee l) (d_ang out) B1 B2 B3 B4 FW W sq c s at2) as (S1 & S2 & _). fold M v in S1, S2. rewrite E1 in S2.
  pose proof (speed_near (settings ieee l) (d_ang out) B1 B2 B3 B4 FW W sq c s at2) as S3. cbv zeta in S3. fold M v in S3. rewrite E1, F1 in S3.
  assert (Fb : fin (fopp (back64 l)) = true) by (rewrite fin_opp; auto).
  destruct (key_mul (fopp (back64 l)) v Fb S1) as (Nn & Kn). rewrite f2r_opp, <- Ropp_mult_distr_l in Kn.
  assert (Kn' : key neg = - clamp (b64 (f2r (back64 l) * f2r v))) by (unfold neg; rewrite Kn, (r_opp _ b64_rounding), clamp_opp; reflexivity).
  assert (P0 : 0 <= clamp (b64 (f2r (back64 l) * f2r v))).
  { replace 0 with (clamp 0) by (apply clamp_in; pose proof inf_pos; lra). apply clamp_mono, (rnd_nonneg _ b64_rounding), Rmult_le_pos; lra. }
  destruct (sat3 (d_fwd raw) v neg N (fin_number _ S1) Nn) as (A & B & C & D); [rewrite key_fin; auto; lra|rewrite Kn', key_fin by auto; lra|].
  assert (E : d_fwd out = d_saturate3 ieee (d_fwd raw) v neg).
  { unfold neg. rewrite <- F2. reflexivity. }
  rewrite <- E in A, B, C, D. rewrite (key_fin v) in B, C by auto.
  split; [exact S1|]. split; [exact S2|]. split; [exact Nn|]. split; [exact Kn'|]. split; [exact A|]. split; [exact B|]. split; [exact C|].
  split; [|exact S3]. intros Fx. destruct D as [D|[D|(D & D2)]]; rewrite D; auto. pose proof (fin_key _ Fx).
  destruct (number_cases _ Nn) as [G|[G|G]]; fold neg in G; auto; rewrite G in D2, B; cbn [key finf] in D2; [|lra]. exfalso. rewrite <- D in G. rewrite G in B. cbn [key finf] in B. pose proof (f2r_lt v) as Lv. apply Rabs_def2 in Lv. lra.
Qed.
End Control.

(** The exact instance is the exact model. *)
Lemma exact_control : forall sq c s at2 (S : field -> R) raw,
  d_control reals (MkMaths R Ropp sqrt sq c s at2) S (MkDC (c_fwd raw) (c_ang raw) (c_lat raw))
  = (let o := base_sat (MkBase (S q_satLin) (S q_satAng) (S q_turn) (S q_back) (S q_side)) raw in MkDC (c_fwd o) (c_ang o) (c_lat o)).
Proof.
  intros sq c s at2 S raw. unfold d_control, base_sat, d_speed, d_saturate2, saturate2, d_saturate3, saturate3, c0, c1, Rgtb.
  cbn [a_q a_lt a_div a_add a_mul reals x_opp x_sqrt d_fwd d_ang d_lat c_fwd c_ang c_lat b_maxLin b_maxAng b_turn b_back b_side].
  replace (0 / 1) with 0 by field. replace (1 / 1) with 1 by field. reflexivity.
Qed.
