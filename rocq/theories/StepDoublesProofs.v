(** Positions of steps in doubles: an accepted step is within the limits up to rounding. *)
From Coq Require Import Reals ZArith Lra Lia List Bool Psatz.
From Flocq Require Import Core IEEE754.BinarySingleNaN.
From Verif Require Import Prelude Rounding RoundedGen RoundedGenSpec RoundedGenProofs2 RoundedGenProofs3 RoundedGenProofs4
  EvalTac Doubles DoublesSpec DoublesProofs DoublesProofs2 CtrlDoubles CtrlDoublesSpec CtrlDoublesProofs TrackDoublesProofs TimedPlan StepDoubles StepDoublesSpec.
Import ListNotations.
Open Scope R_scope.

(** ** Finite results have finite operands *)
Lemma fadd_parts : forall x y, fin (fadd x y) = true -> fin x = true /\ fin y = true.
Proof. intros [s|[]| |s m e H] [s'|[]| |s' m' e' H'] F; try discriminate F; split; reflexivity. Qed.
Lemma fsub_parts : forall x y, fin (fsub x y) = true -> fin x = true /\ fin y = true.
Proof. intros [s|[]| |s m e H] [s'|[]| |s' m' e' H'] F; try discriminate F; split; reflexivity. Qed.
Lemma fmul_parts : forall x y, fin (fmul x y) = true -> fin x = true /\ fin y = true.
Proof. intros [s|[]| |s m e H] [s'|[]| |s' m' e' H'] F; try discriminate F; split; reflexivity. Qed.
Lemma fopp_parts : forall x, fin (fopp x) = fin x.
Proof. intros [s|s| |s m e H]; reflexivity. Qed.
Lemma fsqrt_parts : forall x, fin (fsqrt x) = true -> fin x = true /\ 0 <= f2r x.
Proof.
  intros [s|[]| |[] m e H] F; try discriminate F; split; try reflexivity; try (unfold f2r; simpl; lra).
  unfold f2r. simpl. apply F2R_ge_0. simpl. lia.
Qed.
Lemma fsub_fin : forall x y, fin x = true -> fin y = true -> fin (fsub x y) = true -> f2r (fsub x y) = b64 (f2r x - f2r y).
Proof.
  intros x y Hx Hy H. pose proof (Bminus_correct 53 1024 prec64 emax64 mode_NE x y Hx Hy) as Q.
  destruct (Rlt_bool _ _); [apply Q|]. destruct Q as (Q & _). apply not_fin in Q. destruct Q as (Q & _). unfold fsub in H. congruence.
Qed.
(** A root below a finite bound is finite. *)
Lemma root_below : forall v l, fin l = true -> Bltb (fsqrt v) l = true -> fin (fsqrt v) = true /\ f2r (fsqrt v) < f2r l.
Proof.
  intros v l Fl H. assert (F : fin (fsqrt v) = true).
  { unfold fin, fsqrt. destruct (Bsqrt_correct 53 1024 prec64 emax64 mode_NE v) as (_ & Q & _). rewrite Q. destruct v as [s|s| |[] m e B]; try reflexivity; exfalso.
    - destruct s; [discriminate H|]. change (Bltb (B754_infinity false) l = true) in H. destruct l; discriminate.
    - discriminate H.
    - discriminate H. }
  split; auto. rewrite blt_ok in H by auto. rcasesh H; [auto|discriminate].
Qed.
Lemma sub_exact : forall x y, fin (fsub x y) = true -> exists d, Rabs d <= u64 /\ f2r (fsub x y) = (f2r x - f2r y) * (1 + d).
Proof.
  intros x y F. destruct (fsub_parts _ _ F) as (Fx & Fy). destruct (sub_rel (f2r x) (f2r y) (f2r_b64 x) (f2r_b64 y)) as (d & D & E). exists d. split; auto. rewrite <- E. apply fsub_fin; auto.
Qed.
Lemma u64_bounds : 0 < u64 <= / 9007199254740992 /\ u64 = bpow radix2 (-53).
Proof. rewrite u64_val. repeat split; try lra. Qed.

(** ** Rotations *)
(** A product with a cosine or sine. *)
Lemma prod_near : forall c C e d, Rabs (c - C) <= 2 * u64 -> Rabs C <= 1 -> Rabs d <= u64 ->
  Rabs (b64 (c * (e * (1 + d))) - C * e) <= 17 / 4 * u64 * Rabs e + eta64 /\ Rabs (b64 (c * (e * (1 + d)))) <= 9 / 8 * Rabs e + eta64.
Proof.
  intros c C e d Hc HC Hd. destruct u64_bounds as ((U0 & U1) & _). pose proof eta64_pos as n0. assert (E : 0 <= Rabs e) by apply Rabs_pos. set (a := Rabs e) in *.
  set (w := c * (1 + d)). assert (W : Rabs (w - C) <= 25 / 8 * u64).
  { unfold w. replace (c * (1 + d) - C) with ((c - C) * (1 + d) + C * d) by ring. eapply Rle_trans; [apply Rabs_triang|]. rewrite !Rabs_mult.
    assert (Rabs (1 + d) <= 17 / 16) by (apply Rabs_le_inv in Hd; apply Rabs_le; lra). assert (0 <= Rabs (c - C)) by apply Rabs_pos. assert (0 <= Rabs C) by apply Rabs_pos. assert (0 <= Rabs d) by apply Rabs_pos.
    assert (Rabs (c - C) * Rabs (1 + d) <= 2 * u64 * (17 / 16)) by (apply Rmult_le_compat; auto; apply Rabs_pos). assert (Rabs C * Rabs d <= 1 * u64) by (apply Rmult_le_compat; auto). lra. }
  assert (W1 : Rabs w <= 1 + / 16). { replace w with (C + (w - C)) by ring. eapply Rle_trans; [apply Rabs_triang|]. lra. }
  replace (c * (e * (1 + d))) with (w * e) by (unfold w; ring).
  assert (P1 : Rabs (w * e) <= 17 / 16 * a) by (rewrite Rabs_mult; fold a; apply Rmult_le_compat_r; lra).
  assert (P2 : Rabs (w * e - C * e) <= 25 / 8 * u64 * a) by (replace (w * e - C * e) with ((w - C) * e) by ring; rewrite Rabs_mult; fold a; apply Rmult_le_compat_r; lra).
  pose proof (b64_near _ _ P1) as B. assert (Ua : 0 <= u64 * a <= / 9007199254740992 * a) by (split; [apply Rmult_le_pos; lra|apply Rmult_le_compat_r; lra]).
  split.
  - replace (b64 (w * e) - C * e) with ((b64 (w * e) - w * e) + (w * e - C * e)) by ring. eapply Rle_trans; [apply Rabs_triang|]. lra.
  - replace (b64 (w * e)) with ((b64 (w * e) - w * e) + w * e) by ring. eapply Rle_trans; [apply Rabs_triang|]. lra.
Qed.
(** A component of a rotated difference. *)
Lemma comb_near : forall c s x y C T ex ey dx dy, fin (fadd (fmul c x) (fmul s y)) = true ->
  Rabs (f2r c - C) <= 2 * u64 -> Rabs C <= 1 -> Rabs (f2r s - T) <= 2 * u64 -> Rabs T <= 1 -> Rabs dx <= u64 -> Rabs dy <= u64 ->
  f2r x = ex * (1 + dx) -> f2r y = ey * (1 + dy) ->
  Rabs (f2r (fadd (fmul c x) (fmul s y)) - (C * ex + T * ey)) <= 11 / 2 * u64 * (Rabs ex + Rabs ey) + 4 * eta64.
Proof.
  intros c s x y C T ex ey dx dy F Hc HC Hs HT Dx Dy Ex Ey. destruct (fadd_parts _ _ F) as (F1 & F2). rewrite (fadd_fin _ _ F1 F2 F), (fmul_fin _ _ F1), (fmul_fin _ _ F2), Ex, Ey.
  destruct (prod_near (f2r c) C ex dx Hc HC Dx) as (A1 & A2). destruct (prod_near (f2r s) T ey dy Hs HT Dy) as (B1 & B2).
  set (p := b64 (f2r c * (ex * (1 + dx)))) in *. set (q := b64 (f2r s * (ey * (1 + dy)))) in *. set (a := Rabs ex) in *. set (b := Rabs ey) in *.
  assert (a0 : 0 <= a) by apply Rabs_pos. assert (b0 : 0 <= b) by apply Rabs_pos. destruct u64_bounds as ((U0 & U1) & _). pose proof eta64_pos as n0.
  assert (S : Rabs (p + q) <= 9 / 8 * (a + b) + 2 * eta64) by (eapply Rle_trans; [apply Rabs_triang|]; lra). pose proof (b64_near _ _ S) as B.
  assert (Un : u64 * (2 * eta64) <= eta64) by (assert (u64 * (2 * eta64) <= / 2 * (2 * eta64)) by (apply Rmult_le_compat_r; lra); lra).
  assert (Ua : 0 <= u64 * a) by (apply Rmult_le_pos; lra). assert (Ub : 0 <= u64 * b) by (apply Rmult_le_pos; lra).
  replace (b64 (p + q) - (C * ex + T * ey)) with ((b64 (p + q) - (p + q)) + ((p - C * ex) + (q - T * ey))) by ring.
  eapply Rle_trans; [apply Rabs_triang|]. assert (Rabs ((p - C * ex) + (q - T * ey)) <= 17 / 4 * u64 * a + eta64 + (17 / 4 * u64 * b + eta64)) by (eapply Rle_trans; [apply Rabs_triang|]; lra). lra.
Qed.
Lemma sum_root : forall x y, Rabs x + Rabs y <= 3 / 2 * sqrt (x * x + y * y).
Proof.
  intros x y. set (D := sqrt (x * x + y * y)). assert (D0 : 0 <= D) by apply sqrt_pos. assert (DD : D * D = x * x + y * y) by (apply sqrt_def; pose proof (Rle_0_sqr x); pose proof (Rle_0_sqr y); unfold Rsqr in *; lra).
  assert (X : Rabs x * Rabs x = x * x) by (rewrite <- Rabs_mult; apply Rabs_pos_eq; apply Rle_0_sqr). assert (Y : Rabs y * Rabs y = y * y) by (rewrite <- Rabs_mult; apply Rabs_pos_eq; apply Rle_0_sqr).
  pose proof (Rabs_pos x). pose proof (Rabs_pos y). set (a := Rabs x) in *. set (b := Rabs y) in *. apply Rsqr_incr_0_var; [|lra]. unfold Rsqr.
  assert (0 <= (a - b) * (a - b)) by apply Rle_0_sqr. assert (0 <= D * D) by apply Rle_0_sqr. lra.
Qed.

Section Geometry.
Variables (sq c s : f64 -> f64) (at2 : f64 -> f64 -> f64).
Let M := ieee_maths sq c s at2.
Hypothesis trig : close_trig c s.
Hypothesis squ : close_square sq.

Lemma trig_ok : forall th, fin (c th) = true \/ fin (s th) = true -> fin th = true /\
  Rabs (f2r (c th) - cos (f2r th)) <= 2 * u64 /\ Rabs (f2r (s th) - sin (f2r th)) <= 2 * u64 /\ Rabs (f2r (fopp (s th)) - - sin (f2r th)) <= 2 * u64.
Proof.
  intros th H. destruct (trig th) as (T1 & T2). assert (F : fin th = true). { destruct (fin th) eqn:F; auto. destruct (T2 eq_refl) as (A & B). destruct H; congruence. }
  destruct (T1 F) as (_ & _ & A & B). assert (E : bpow radix2 (-52) = 2 * u64) by (rewrite (proj2 u64_bounds); change (-52)%Z with (1 + -53)%Z; rewrite bpow_plus; reflexivity). rewrite E in *.
  repeat split; auto. rewrite f2r_opp. replace (- f2r (s th) - - sin (f2r th)) with (- (f2r (s th) - sin (f2r th))) by ring. rewrite Rabs_Ropp. exact B.
Qed.
Lemma cos_abs : forall x, Rabs (cos x) <= 1.
Proof. intros x. apply Rabs_le. apply COS_bound. Qed.
Lemma sin_abs : forall x, Rabs (sin x) <= 1.
Proof. intros x. apply Rabs_le. apply SIN_bound. Qed.

(** The rotated difference of two positions. *)
Lemma turned_ahead : forall th a b, fin (fst (g_rotT ieee M th (g_sub ieee b a))) = true ->
  (fin th = true /\ fin (fst a) = true /\ fin (snd a) = true /\ fin (fst b) = true /\ fin (snd b) = true) /\
  Rabs (f2r (fst (g_rotT ieee M th (g_sub ieee b a))) - ahead th a b) <= 33 / 4 * u64 * apart a b + 4 * eta64.
Proof.
  intros th (ax & ay) (bx & by_) F. unfold g_rotT, g_sub, ahead, apart in *. cbn [fst snd a_add a_mul a_sub ieee x_cos x_sin x_opp M ieee_maths] in *.
  destruct (fadd_parts _ _ F) as (F1 & F2). destruct (fmul_parts _ _ F1) as (Fc & Fx). destruct (fmul_parts _ _ F2) as (Fs & Fy). destruct (fsub_parts _ _ Fx) as (X1 & X2). destruct (fsub_parts _ _ Fy) as (Y1 & Y2).
  destruct (trig_ok th (or_introl Fc)) as (Ft & T1 & T2 & T3). destruct (sub_exact _ _ Fx) as (dx & Dx & Ex). destruct (sub_exact _ _ Fy) as (dy & Dy & Ey). split; [tauto|].
  pose proof (comb_near _ _ _ _ _ _ _ _ _ _ F T1 (cos_abs _) T2 (sin_abs _) Dx Dy Ex Ey) as K. eapply Rle_trans; [exact K|].
  set (ex := f2r bx - f2r ax) in *. set (ey := f2r by_ - f2r ay) in *. pose proof (sum_root ex ey) as Q. destruct u64_bounds as ((U0 & U1) & _).
  assert (u64 * (Rabs ex + Rabs ey) <= u64 * (3 / 2 * sqrt (ex * ex + ey * ey))) by (apply Rmult_le_compat_l; lra). lra.
Qed.
Lemma turned_aside : forall th a b, fin (snd (g_rotT ieee M th (g_sub ieee b a))) = true ->
  Rabs (f2r (snd (g_rotT ieee M th (g_sub ieee b a))) - aside th a b) <= 33 / 4 * u64 * apart a b + 4 * eta64.
Proof.
  intros th (ax & ay) (bx & by_) F. unfold g_rotT, g_sub, aside, apart in *. cbn [fst snd a_add a_mul a_sub ieee x_cos x_sin x_opp M ieee_maths] in *.
  destruct (fadd_parts _ _ F) as (F1 & F2). destruct (fmul_parts _ _ F1) as (Fc & Fx). destruct (fmul_parts _ _ F2) as (Fs & Fy).
  destruct (trig_ok th (or_introl Fs)) as (Ft & T1 & T2 & T3). destruct (sub_exact _ _ Fx) as (dx & Dx & Ex). destruct (sub_exact _ _ Fy) as (dy & Dy & Ey).
  assert (Sn : Rabs (- sin (f2r th)) <= 1) by (rewrite Rabs_Ropp; apply sin_abs).
  pose proof (comb_near _ _ _ _ _ _ _ _ _ _ F T3 Sn T1 (cos_abs _) Dx Dy Ex Ey) as K. eapply Rle_trans; [exact K|].
  set (ex := f2r bx - f2r ax) in *. set (ey := f2r by_ - f2r ay) in *. pose proof (sum_root ex ey) as Q. destruct u64_bounds as ((U0 & U1) & _).
  assert (u64 * (Rabs ex + Rabs ey) <= u64 * (3 / 2 * sqrt (ex * ex + ey * ey))) by (apply Rmult_le_compat_l; lra). lra.
Qed.
Lemma turned_length : forall th a b, sqrt (ahead th a b * ahead th a b + aside th a b * aside th a b) = apart a b.
Proof.
  intros th a b. unfold ahead, aside, apart. f_equal. set (x := f2r (fst b) - f2r (fst a)). set (y := f2r (snd b) - f2r (snd a)). set (C := cos (f2r th)). set (S := sin (f2r th)).
  assert (E : S * S + C * C = 1) by exact (sin2_cos2 (f2r th)). transitivity ((S * S + C * C) * (x * x + y * y)); [ring|rewrite E; ring].
Qed.

(** ** Lengths *)
Let e := bpow radix2 (-530).
Lemma norm_near : forall v, fin (g_norm ieee M v) = true -> let n := sqrt (f2r (fst v) * f2r (fst v) + f2r (snd v) * f2r (snd v)) in
  fin (fst v) = true /\ fin (snd v) = true /\ Rabs (f2r (g_norm ieee M v) - n) <= 6 * u64 * n + 4 * e.
Proof.
  intros (x & y) F n. unfold g_norm in *. cbn [fst snd a_add ieee x_sqrt x_sqr M ieee_maths] in *. destruct (fsqrt_parts _ F) as (Fs & P). destruct (fadd_parts _ _ Fs) as (F1 & F2).
  destruct (squ x F1) as (Fx & Qx). destruct (squ y F2) as (Fy & Qy). repeat (split; [assumption|]). destruct (fsqrt_ok _ Fs P) as (_ & Vr). pose proof (fadd_fin _ _ F1 F2 Fs) as Vs.
  assert (E : bpow radix2 (-52) = 2 * u64) by (rewrite (proj2 u64_bounds); change (-52)%Z with (1 + -53)%Z; rewrite bpow_plus; reflexivity). rewrite E in *. assert (E' : bpow radix2 (-1075) = eta64) by (unfold eta64; change (/ 2) with (bpow radix2 (-1)); rewrite <- bpow_plus; reflexivity). rewrite E' in *.
  rewrite Vr. set (v := f2r (fadd (sq x) (sq y))) in *. set (p := f2r (sq x)) in *. set (q := f2r (sq y)) in *. set (X := f2r x * f2r x) in *. set (Y := f2r y * f2r y) in *.
  assert (X0 : 0 <= X) by apply Rle_0_sqr. assert (Y0 : 0 <= Y) by apply Rle_0_sqr. set (t := X + Y) in *. assert (T : 0 <= t) by (unfold t; lra).
  destruct u64_bounds as ((U0 & U1) & _). pose proof eta64_pos as n0. assert (Ut : 0 <= u64 * t <= / 9007199254740992 * t) by (split; [apply Rmult_le_pos; lra|apply Rmult_le_compat_r; lra]).
  assert (Et : u64 * t = u64 * X + u64 * Y) by (unfold t; ring). apply Rabs_le_inv in Qx. apply Rabs_le_inv in Qy.
  assert (UX : 0 <= u64 * X) by (apply Rmult_le_pos; lra). assert (UY : 0 <= u64 * Y) by (apply Rmult_le_pos; lra).
  assert (Us : u64 * (2 * eta64) <= eta64) by (assert (u64 * (2 * eta64) <= / 2 * (2 * eta64)) by (apply Rmult_le_compat_r; lra); lra).
  assert (N2 : Rabs (b64 (p + q) - (p + q)) <= u64 * (5 / 4 * t + 2 * eta64) + eta64) by (apply b64_near; apply Rabs_le; unfold t in *; lra).
  rewrite <- Vs in N2. apply Rabs_le_inv in N2.
  assert (D0 : 0 <= n) by apply sqrt_pos. assert (DD : n * n = t) by (apply sqrt_def; auto).
  destruct small_powers as (e0 & e1 & e2 & _). fold e in e0, e1, e2.
  assert (N3 : Rabs (sqrt v - n) <= 4 * u64 * n + 2 * e).
  { apply (sqrt_near n v (sqrt v) (4 * u64) (2 * e) (4 * eta64)); auto; try lra; [apply sqrt_pos|apply sqrt_def; auto|]. rewrite DD. apply Rabs_le. unfold t in *. lra. }
  apply Rabs_le_inv in N3. set (g := sqrt v) in *. assert (g0 : 0 <= g) by apply sqrt_pos.
  assert (UD : 0 <= u64 * n <= / 9007199254740992 * n) by (split; [apply Rmult_le_pos; lra|apply Rmult_le_compat_r; lra]).
  assert (Ue : u64 * (2 * e) <= e) by (assert (u64 * (2 * e) <= / 2 * (2 * e)) by (apply Rmult_le_compat_r; lra); lra).
  assert (N4 : Rabs (b64 g - g) <= u64 * (5 / 4 * n + 2 * e) + eta64) by (apply b64_near; rewrite Rabs_pos_eq; lra). apply Rabs_le_inv in N4. apply Rabs_le. lra.
Qed.
Lemma norm_triangle : forall x y a b, sqrt (x * x + y * y) <= sqrt (a * a + b * b) + (Rabs (a - x) + Rabs (b - y)).
Proof.
  intros x y a b. pose proof (triangle x y 0 0 a b) as H. unfold dist_euc, Rsqr in H.
  replace ((x - 0) * (x - 0) + (y - 0) * (y - 0)) with (x * x + y * y) in H by ring. replace ((a - 0) * (a - 0) + (b - 0) * (b - 0)) with (a * a + b * b) in H by ring.
  assert (K : sqrt ((x - a) * (x - a) + (y - b) * (y - b)) <= Rabs (a - x) + Rabs (b - y)).
  { pose proof (Rabs_pos (a - x)). pose proof (Rabs_pos (b - y)). apply Rsqr_incr_0_var; [|lra]. rewrite Rsqr_sqrt by (pose proof (Rle_0_sqr (x - a)); pose proof (Rle_0_sqr (y - b)); unfold Rsqr in *; lra). unfold Rsqr.
    assert (X : Rabs (a - x) * Rabs (a - x) = (x - a) * (x - a)) by (rewrite <- Rabs_mult, Rabs_pos_eq by apply Rle_0_sqr; ring). assert (Y : Rabs (b - y) * Rabs (b - y) = (y - b) * (y - b)) by (rewrite <- Rabs_mult, Rabs_pos_eq by apply Rle_0_sqr; ring). assert (0 <= Rabs (a - x) * Rabs (b - y)) by (apply Rmult_le_pos; auto). lra. }
  lra.
Qed.
(** A computed length below a bound: the exact distance is below it up to rounding. *)
Lemma length_below : forall th a b l, fin l = true -> Bltb (g_norm ieee M (g_rotT ieee M th (g_sub ieee b a))) l = true ->
  (fin th = true /\ fin (fst a) = true /\ fin (snd a) = true /\ fin (fst b) = true /\ fin (snd b) = true) /\
  (fin (fst (g_rotT ieee M th (g_sub ieee b a))) = true /\ fin (snd (g_rotT ieee M th (g_sub ieee b a))) = true) /\ 0 < f2r l /\
  apart a b <= f2r l + slack (f2r l) /\ 33 / 4 * u64 * apart a b + 4 * eta64 <= slack (f2r l).
Proof.
  intros th a b l Fl H. destruct (root_below _ _ Fl H) as (F & L). fold (g_norm ieee M (g_rotT ieee M th (g_sub ieee b a))) in F, L.
  change (fin (g_norm ieee M (g_rotT ieee M th (g_sub ieee b a))) = true) in F. change (f2r (g_norm ieee M (g_rotT ieee M th (g_sub ieee b a))) < f2r l) in L.
  destruct (norm_near _ F) as (F1 & F2 & N). destruct (turned_ahead th a b F1) as (K & A1). pose proof (turned_aside th a b F2) as A2. split; [exact K|]. split; [tauto|].
  pose proof (turned_length th a b) as TL. set (X := f2r (fst (g_rotT ieee M th (g_sub ieee b a)))) in *. set (Y := f2r (snd (g_rotT ieee M th (g_sub ieee b a)))) in *.
  pose proof (norm_triangle (ahead th a b) (aside th a b) X Y) as TR. rewrite TL in TR. set (D := apart a b) in *. assert (D0 : 0 <= D) by apply sqrt_pos.
  set (n := sqrt (X * X + Y * Y)) in *. assert (Hn0 : 0 <= n) by apply sqrt_pos. destruct u64_bounds as ((U0 & U1) & EU). pose proof eta64_pos as n0. destruct small_powers as (e0 & e1 & e2 & _). fold e in e0, e1, e2.
  apply Rabs_le_inv in N. unfold slack. assert (E1 : bpow radix2 (-48) = 32 * u64) by (rewrite EU; change (-48)%Z with (5 + -53)%Z; rewrite bpow_plus; reflexivity).
  assert (E2 : bpow radix2 (-520) = 1024 * e) by (unfold e; change (-520)%Z with (10 + -530)%Z; rewrite bpow_plus; reflexivity). rewrite E1, E2.
  set (L0 := f2r l) in *. assert (Q1 : n * (1 - 6 * u64) <= L0 + 4 * e) by lra. assert (Q2 : D * (1 - 33 / 2 * u64) <= n + 8 * e) by lra.
  assert (Hr : 0 <= f2r (g_norm ieee M (g_rotT ieee M th (g_sub ieee b a)))).
  { unfold g_norm in *. cbn [x_sqrt M ieee_maths] in *. destruct (fsqrt_parts _ F) as (G1 & G2). destruct (fsqrt_ok _ G1 G2) as (_ & ->). apply (rnd_nonneg _ b64_rounding), sqrt_pos. }
  assert (L1 : 0 < L0) by lra.
  assert (Q3 : D * ((1 - 33 / 2 * u64) * (1 - 6 * u64)) <= L0 + 12 * e). { replace (D * ((1 - 33 / 2 * u64) * (1 - 6 * u64))) with (D * (1 - 33 / 2 * u64) * (1 - 6 * u64)) by ring. apply Rle_trans with ((n + 8 * e) * (1 - 6 * u64)); [apply Rmult_le_compat_r; lra|]. assert (0 <= 6 * u64 * (8 * e)) by (apply Rmult_le_pos; lra). lra. }
  assert (Q4 : 1 <= (1 + 32 * u64) * ((1 - 33 / 2 * u64) * (1 - 6 * u64))).
  { assert (V2 : 0 <= u64 * u64 <= / 9007199254740992 * u64) by (split; [apply Rmult_le_pos; lra|apply Rmult_le_compat_r; lra]). assert (V3 : 0 <= u64 * u64 * u64) by (apply Rmult_le_pos; lra).
    replace ((1 + 32 * u64) * ((1 - 33 / 2 * u64) * (1 - 6 * u64))) with (1 + 19 / 2 * u64 - 621 * (u64 * u64) + 3168 * (u64 * u64 * u64)) by field. lra. }
  assert (Q5 : D <= (1 + 32 * u64) * (L0 + 12 * e)). { apply Rle_trans with (D * ((1 + 32 * u64) * ((1 - 33 / 2 * u64) * (1 - 6 * u64)))); [rewrite <- (Rmult_1_r D) at 1; apply Rmult_le_compat_l; auto|]. replace (D * ((1 + 32 * u64) * ((1 - 33 / 2 * u64) * (1 - 6 * u64)))) with ((1 + 32 * u64) * (D * ((1 - 33 / 2 * u64) * (1 - 6 * u64)))) by ring. apply Rmult_le_compat_l; lra. }
  assert (Q6 : 32 * u64 * (12 * e) <= e) by (assert (32 * u64 * (12 * e) = 384 * u64 * e) as -> by ring; assert (384 * u64 * e <= 1 * e) by (apply Rmult_le_compat_r; lra); lra).
  split; [exact L1|]. split; [lra|]. assert (Q7 : u64 * D <= u64 * (2 * L0 + 24 * e)). { apply Rmult_le_compat_l; [lra|]. assert (32 * u64 * L0 <= 1 * L0) by (apply Rmult_le_compat_r; lra). lra. }
  assert (u64 * e <= e) by (assert (u64 * e <= 1 * e) by (apply Rmult_le_compat_r; lra); lra). assert (0 <= u64 * L0) by (apply Rmult_le_pos; lra). lra.
Qed.
End Geometry.
