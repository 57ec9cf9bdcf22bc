(** C77: transforms, twists and accelerations reported for the feet. *)
From Coq Require Import String Reals Lra Lia List Bool Psatz.
From Verif Require Import Prelude EvalTac Rounding FootPrint GenPhases GenSpec GenProofs GenProofs2 GenProofs3 GenProofs4 FeetTraj FeetSpec FeetProofs FeetProofs2 FeetProofs3 CoMHeightSpec
  Properties_Generator Properties_Feet FeetSpline FeetSplineSpec FeetSplineProofs Properties_FeetSpline EllipseProofs FeetPose FeetPoseSpec FeetPoseProofs.
Import ListNotations.
Open Scope R_scope.

(** The pose of the minimum jerk swing of duration [T] in continuous time: horizontally and in yaw at time [t] of it, vertically and
    in pitch at time [u] of a half that lasts [h] and leads from [z0], [q0] to [z1], [q1]. *)
Definition minjerk_pose (T : R) (s0 s1 : step) (z0 z1 q0 q1 h t u : R) (p : vec3) (m : mat3) : Prop :=
  exists x y z q w, min_jerk (vx (st_pos s0)) (vx (st_pos s1)) t T = Ok x /\ min_jerk (vy (st_pos s0)) (vy (st_pos s1)) t T = Ok y
  /\ min_jerk z0 z1 u h = Ok z /\ min_jerk q0 q1 u h = Ok q /\ min_jerk (st_angle s0) (st_angle s1) t T = Ok w
  /\ p = V3 (p_p x) (p_p y) (p_p z) /\ m = rpy 0 (p_p q) (p_p w).

Definition jerk_curve (i f d : R) : { c : curve | 0 < d -> smooth c /\ (forall t, 0 <= t <= d -> exists a, min_jerk i f t d = Ok (MkPva (cu_p c t) (cu_v c t) a) /\ derivable_pt_lim (cu_v c) t a) }.
Proof.
  destruct (Rlt_dec 0 d) as [Hd|Hd]; [|exists (MkCurve (fun _ => 0) (fun _ => 0)); intros; lra].
  exists (MkCurve (fun t => poly (t / d) * (f - i) + i) (fun t => (30 * (t / d) ^ 4 - 60 * (t / d) ^ 3 + 30 * (t / d) ^ 2) / d * (f - i))). intros _.
  assert (Q := C46_derivatives i f d Hd). cbn [cu_p cu_v]. split.
  - intros t. pose proof (scaled_derive poly _ d (f - i) poly_derive ltac:(lra) t) as D.
    pose proof (derivable_pt_lim_plus _ _ _ _ _ D (derivable_pt_lim_const i t)) as D2. rewrite Rplus_0_r in D2. exact D2.
  - intros t Ht. exists ((120 * (t / d) ^ 3 - 180 * (t / d) ^ 2 + 60 * (t / d)) / d ^ 2 * (f - i)). split.
    + destruct (min_jerk_ok i f t d Hd Ht) as ([xp xv xa] & E & P & V & A). cbn in P, V, A. rewrite E. f_equal. f_equal; [rewrite P; ring|exact V|exact A].
    + pose proof (scaled_derive _ _ d ((f - i) / d) dpoly_derive ltac:(lra) t) as D. cbv beta in D.
      match type of D with derivable_pt_lim ?F _ ?l =>
        replace ((120 * (t / d) ^ 3 - 180 * (t / d) ^ 2 + 60 * (t / d)) / d ^ 2 * (f - i)) with l by (field; lra);
        eapply derivable_pt_lim_ext_eq; [|exact D] end. intros z. cbv beta. field. lra.
Defined.
Lemma jerk_at : forall i f d x t, 0 < d -> min_jerk i f t d = Ok x -> 0 <= t <= d -> at_curve (proj1_sig (jerk_curve i f d)) t x.
Proof.
  intros i f d x t Hd E Ht. destruct (jerk_curve i f d) as [c H]. cbn [proj1_sig]. destruct (H Hd) as [_ H2]. destruct (H2 t Ht) as (a & E2 & D). rewrite E2 in E. injection E as <-. repeat split; auto.
Qed.
Lemma jerk_smooth : forall i f d, 0 < d -> smooth (proj1_sig (jerk_curve i f d)).
Proof. intros i f d Hd. destruct (jerk_curve i f d) as [c H]. apply (H Hd). Qed.
Lemma jerk_range : forall i f t d x, 0 < d -> min_jerk i f t d = Ok x -> 0 <= t <= d.
Proof.
  intros i f t d x Hd H. unfold min_jerk in H. rewrite reqb_f in H by lra. destruct (Rltb (t / d) 0) eqn:E1; [discriminate|]. destruct (Rgtb (t / d) 1) eqn:E2; [discriminate|]. clear H.
  unfold Rgtb in E2. apply Rltb_false in E1. apply Rltb_false in E2. assert (t = t / d * d) by (field; lra). nra.
Qed.
Lemma jerk_value : forall i f d t, 0 < d -> 0 <= t <= d -> exists x, min_jerk i f t d = Ok x /\ p_p x = cu_p (proj1_sig (jerk_curve i f d)) t.
Proof. intros i f d t Hd Ht. destruct (jerk_curve i f d) as [c H]. cbn [proj1_sig]. destruct (H Hd) as [_ H2]. destruct (H2 t Ht) as (a & E & _). eexists. split; [exact E|reflexivity]. Qed.

Definition delayed (d : R) (c : curve) : curve := MkCurve (fun t => cu_p c (t - d)) (fun t => cu_v c (t - d)).
Lemma delayed_smooth : forall d c, smooth c -> smooth (delayed d c).
Proof. intros d c H t. cbn. apply (shift_derive (cu_p c) (cu_v c)). exact H. Qed.
Lemma delayed_at : forall d c t x, at_curve c (t - d) x -> at_curve (delayed d c) t x.
Proof.
  intros d c t x (A & B & C). repeat split; auto. cbn. replace (p_a x) with (p_a x * 1) by ring.
  apply (derivable_pt_lim_comp (fun t => t - d) (cu_v c)); [|exact C].
  replace 1 with (1 - 0) by ring. apply derivable_pt_lim_minus; [apply derivable_pt_lim_id|apply derivable_pt_lim_const].
Qed.

(** C77, minimum jerk: up to an instant next to the apex the samples describe one rigid motion, from there on another one; both have
    the poses of the interpolation. *)
Theorem C77_minjerk_swing : forall fops dT n s0 s1 (out : list sample), 0 < dT -> (1 <= n)%nat ->
  let c := feet_history fops in let T := INR n * dT in swing_minjerk c dT n s0 s1 = Ok out ->
  exists (n1 : nat) rise fall, Rabs (INR n1 - INR n * f_apex c) <= / 2 /\ rigid rise /\ rigid fall
  /\ (forall t, 0 <= t <= T * f_apex c -> minjerk_pose T s0 s1 0 (f_height c) 0 (f_pitch c) (T * f_apex c) t t (mo_p rise t) (mo_R rise t))
  /\ (forall t, INR n1 * dT <= t <= T -> t <= INR n1 * dT + T * (1 - f_apex c) ->
        minjerk_pose T s0 s1 (f_height c) 0 (f_pitch c) 0 (T * (1 - f_apex c)) t (t - INR n1 * dT) (mo_p fall t) (mo_R fall t))
  /\ forall k x, nth_error out k = Some x -> describes (if Nat.ltb k n1 then rise else fall) (INR k * dT) (report x).
Proof.
  intros fops dT n s0 s1 out Hd Hn c T E. pose proof (feet_history_ok fops) as Hc. fold c in Hc. pose proof (fk_apex c Hc) as Ha.
  destruct (C46_samples_on_curves fops dT n s0 s1 out Hd E) as (n1 & Hn1 & K). fold c in Hn1, K. fold T in K.
  assert (HT : 0 < T) by (apply Rmult_lt_0_compat; auto; apply lt_0_INR; lia).
  set (hr := T * f_apex c) in *. set (hf := T * (1 - f_apex c)) in *. assert (Hr : 0 < hr) by (apply Rmult_lt_0_compat; lra). assert (Hf : 0 < hf) by (apply Rmult_lt_0_compat; lra).
  set (jc := fun i f d => proj1_sig (jerk_curve i f d)).
  set (X := jc (vx (st_pos s0)) (vx (st_pos s1)) T). set (Y := jc (vy (st_pos s0)) (vy (st_pos s1)) T). set (W := jc (st_angle s0) (st_angle s1) T).
  set (Zr := jc 0 (f_height c) hr). set (Qr := jc 0 (f_pitch c) hr). set (Zf := delayed (INR n1 * dT) (jc (f_height c) 0 hf)). set (Qf := delayed (INR n1 * dT) (jc (f_pitch c) 0 hf)).
  assert (SX : smooth X) by (apply jerk_smooth; auto). assert (SY : smooth Y) by (apply jerk_smooth; auto). assert (SW : smooth W) by (apply jerk_smooth; auto).
  assert (SZr : smooth Zr) by (apply jerk_smooth; auto). assert (SQr : smooth Qr) by (apply jerk_smooth; auto).
  assert (SZf : smooth Zf) by (apply delayed_smooth, jerk_smooth; auto). assert (SQf : smooth Qf) by (apply delayed_smooth, jerk_smooth; auto).
  exists n1, (body X Y Zr Qr W), (body X Y Zf Qf W). split; [exact Hn1|]. split; [apply body_rigid; auto|]. split; [apply body_rigid; auto|]. split; [|split].
  - intros t Ht. assert (Ht' : 0 <= t <= T) by (unfold hr in Ht; nra).
    destruct (jerk_value (vx (st_pos s0)) (vx (st_pos s1)) T t HT Ht') as (x & Ex & Px). destruct (jerk_value (vy (st_pos s0)) (vy (st_pos s1)) T t HT Ht') as (y & Ey & Py).
    destruct (jerk_value (st_angle s0) (st_angle s1) T t HT Ht') as (w & Ew & Pw). destruct (jerk_value 0 (f_height c) hr t Hr Ht) as (z & Ez & Pz). destruct (jerk_value 0 (f_pitch c) hr t Hr Ht) as (q & Eq & Pq).
    exists x, y, z, q, w. repeat (split; [assumption|]). rewrite Px, Py, Pz, Pq, Pw. split; reflexivity.
  - intros t Ht Hu. assert (Ht' : 0 <= t <= T) by (pose proof (pos_INR n1); nra). assert (Hu' : 0 <= t - INR n1 * dT <= hf) by lra.
    destruct (jerk_value (vx (st_pos s0)) (vx (st_pos s1)) T t HT Ht') as (x & Ex & Px). destruct (jerk_value (vy (st_pos s0)) (vy (st_pos s1)) T t HT Ht') as (y & Ey & Py).
    destruct (jerk_value (st_angle s0) (st_angle s1) T t HT Ht') as (w & Ew & Pw). destruct (jerk_value (f_height c) 0 hf _ Hf Hu') as (z & Ez & Pz). destruct (jerk_value (f_pitch c) 0 hf _ Hf Hu') as (q & Eq & Pq).
    exists x, y, z, q, w. repeat (split; [assumption|]). rewrite Px, Py, Pz, Pq, Pw. split; reflexivity.
  - intros k x Hx. destruct (K k x Hx) as (A1 & A2 & A3 & A4 & A5).
    assert (B1 : at_curve X (INR k * dT) (s_x x)) by (apply jerk_at; auto; eapply jerk_range; eauto).
    assert (B2 : at_curve Y (INR k * dT) (s_y x)) by (apply jerk_at; auto; eapply jerk_range; eauto).
    assert (B3 : at_curve W (INR k * dT) (s_yaw x)) by (apply jerk_at; auto; eapply jerk_range; eauto).
    destruct (Nat.ltb_spec k n1) as [L|L].
    + destruct (A4 L) as [Z1 Z2]. apply body_describes; auto; apply jerk_at; auto; eapply jerk_range; eauto.
    + destruct (A5 L) as [Z1 Z2]. apply body_describes; auto; apply delayed_at; apply jerk_at; auto; eapply jerk_range; eauto.
Qed.
Print Assumptions C77_minjerk_swing.

(** The cubic splines are curves. *)
Lemma curve2 : forall T a b f, clamped2 T a b f -> exists c, smooth c /\ forall t, 0 <= t <= T -> at_curve c t (f t).
Proof.
  intros T a b f (a0 & a1 & a2 & a3 & E & _). exists (MkCurve (fun t => p_p (cubic a0 a1 a2 a3 t)) (fun t => p_v (cubic a0 a1 a2 a3 t))).
  split; [intros t; apply cubic_p|]. intros t Ht. rewrite (E t Ht). split; [reflexivity|]. split; [reflexivity|]. apply cubic_v.
Qed.
Lemma curve3 : forall T1 T a m b v f, clamped3 T1 T a m b v f -> exists c, smooth c /\ forall t, 0 <= t <= T -> at_curve c t (f t).
Proof.
  intros T1 T a m b v f (a0 & a1 & a2 & a3 & b0 & b1 & b2 & b3 & E1 & E2 & _ & _ & _ & _ & _ & J).
  set (A := cubic a0 a1 a2 a3). set (B := fun t => cubic b0 b1 b2 b3 (t - T1)).
  assert (J' : A T1 = B T1) by (unfold A, B; rewrite Rminus_diag_eq by reflexivity; exact J).
  exists (MkCurve (fun t => if Rle_dec t T1 then p_p (A t) else p_p (B t)) (fun t => if Rle_dec t T1 then p_v (A t) else p_v (B t))).
  assert (Bp : forall t, derivable_pt_lim (fun t => p_p (B t)) t (p_v (B t))) by (apply (shift_derive (fun t => p_p (cubic b0 b1 b2 b3 t)) (fun t => p_v (cubic b0 b1 b2 b3 t)) T1); apply cubic_p).
  assert (Bv : forall t, derivable_pt_lim (fun t => p_v (B t)) t (p_a (B t))) by (apply (shift_derive (fun t => p_v (cubic b0 b1 b2 b3 t)) (fun t => p_a (cubic b0 b1 b2 b3 t)) T1); apply cubic_v).
  split.
  - intros t. cbn [cu_p cu_v]. apply (piecewise (fun t => p_p (A t)) (fun t => p_v (A t)) (fun t => p_p (B t)) (fun t => p_v (B t)) T1); auto; [intros; apply cubic_p|congruence|congruence].
  - intros t Ht. assert (F : f t = if Rle_dec t T1 then A t else B t) by (destruct (Rle_dec t T1); [apply E1|apply E2]; lra).
    pose proof (piecewise (fun t => p_v (A t)) (fun t => p_a (A t)) (fun t => p_v (B t)) (fun t => p_a (B t)) T1 ltac:(intros; apply cubic_v) Bv ltac:(congruence) ltac:(congruence) t) as D.
    rewrite F. unfold at_curve. cbn [cu_p cu_v]. revert D. destruct (Rle_dec t T1); auto.
Qed.

(** C77, cubic splines: one rigid motion for the whole swing. *)
Theorem C77_spline_swing : forall spl2 spl3 fops dT n s0 s1 (out : list sample), splines2 spl2 -> splines3 spl3 -> 0 < dT -> (1 <= n)%nat ->
  let c := feet_history fops in let T := INR n * dT in swing_spline spl2 spl3 c dT n s0 s1 = Ok out ->
  exists m, rigid m
  /\ (forall t, 0 <= t <= T ->
        mo_p m t = V3 (p_p (spl2 T (vx (st_pos s0)) (vx (st_pos s1)) t)) (p_p (spl2 T (vy (st_pos s0)) (vy (st_pos s1)) t)) (p_p (spl3 (f_apex c * T) T 0 (f_height c) 0 (f_landing c) t))
        /\ mo_R m t = rpy 0 (p_p (spl3 (f_apex c * T) T 0 (f_pitch c) 0 0 t)) (p_p (spl2 T (st_angle s0) (st_angle s1) t)))
  /\ forall k x, nth_error out k = Some x -> describes m (INR k * dT) (report x).
Proof.
  intros spl2 spl3 fops dT n s0 s1 out S2 S3 Hd Hn c T E. pose proof (feet_history_ok fops) as Hc. fold c in Hc. pose proof (fk_apex c Hc) as Ha.
  assert (HT : 0 < T) by (apply Rmult_lt_0_compat; auto; apply lt_0_INR; lia). assert (T1 : 0 < f_apex c * T < T) by nra.
  rewrite swing_list_ok in E by auto. injection E as <-.
  destruct (curve2 _ _ _ _ (S2 T (vx (st_pos s0)) (vx (st_pos s1)) HT)) as (X & SX & AX). destruct (curve2 _ _ _ _ (S2 T (vy (st_pos s0)) (vy (st_pos s1)) HT)) as (Y & SY & AY).
  destruct (curve2 _ _ _ _ (S2 T (st_angle s0) (st_angle s1) HT)) as (W & SW & AW).
  destruct (curve3 _ _ _ _ _ _ _ (S3 _ _ 0 (f_height c) 0 (f_landing c) T1)) as (Z & SZ & AZ). destruct (curve3 _ _ _ _ _ _ _ (S3 _ _ 0 (f_pitch c) 0 0 T1)) as (Q & SQ & AQ).
  exists (body X Y Z Q W). split; [apply body_rigid; auto|]. split.
  - intros t Ht. cbn [body mo_p mo_R]. rewrite (proj1 (AX t Ht)), (proj1 (AY t Ht)), (proj1 (AZ t Ht)), (proj1 (AQ t Ht)), (proj1 (AW t Ht)). split; reflexivity.
  - intros k x Hx. destruct (swing_list_nth _ _ _ _ _ _ _ _ _ Hx) as (L & ->). destruct (sample_time n k dT Hd L) as (_ & B & _). fold T in B. fold T. fold c.
    apply body_describes; auto; cbn [s_x s_y s_z s_pitch s_yaw]; [apply AX|apply AY|apply AZ|apply AQ|apply AW]; exact B.
Qed.
Print Assumptions C77_spline_swing.

(** C77, outside swing: the foot lies flat on its step and does not move. *)
Theorem C77_rest : forall s, report (rest_at s) = report_rest s
  /\ exists m, rigid m /\ (forall t, mo_p m t = V3 (vx (st_pos s)) (vy (st_pos s)) 0 /\ mo_R m t = rpy 0 0 (st_angle s) /\ mo_v m t = v3zero /\ mo_w m t = v3zero)
     /\ forall t, describes m t (report_rest s).
Proof.
  intros s. assert (E : report (rest_at s) = report_rest s).
  { unfold report, report_rest, rest_at, still, mv, dot3, v3plus, v3zero, rpy_map, rpy_map_rate. cbn. repeat f_equal; ring. }
  split; [exact E|]. set (k := fun a => MkCurve (fun _ => a) (fun _ => 0)).
  assert (Sk : forall a, smooth (k a)) by (intros a t; apply derivable_pt_lim_const).
  assert (Ak : forall a t, at_curve (k a) t (still a)) by (intros a t; split; [reflexivity|split; [reflexivity|apply derivable_pt_lim_const]]).
  exists (body (k (vx (st_pos s))) (k (vy (st_pos s))) (k 0) (k 0) (k (st_angle s))). split; [apply body_rigid; auto|]. split.
  - intros t. cbn. repeat split. unfold mv, dot3, rpy_map, v3zero. cbn. f_equal; ring.
  - intros t. rewrite <- E. apply body_describes; auto; apply Ak.
Qed.
Print Assumptions C77_rest.

(** C77 for whole trajectories, whatever the phases: the reports of a foot are a sequence of rests on a step and of swings
    from one step to the next; [moves n s0 s1 out] says what the [n] reports of a swing are. *)
Inductive pieces (moves : nat -> step -> step -> list reported -> Prop) : list step -> list reported -> Prop :=
| pieces_end : forall st, pieces moves st []
| pieces_rest : forall s0 st n out, pieces moves (s0 :: st) out -> pieces moves (s0 :: st) (repeat (report_rest s0) n ++ out)
| pieces_swing : forall s0 s1 st n sw out, length sw = n -> moves n s0 s1 sw -> pieces moves (s1 :: st) out -> pieces moves (s0 :: s1 :: st) (sw ++ out).
Definition minjerk_moves (c : feetcfg) (dT : R) (n : nat) (s0 s1 : step) (out : list reported) : Prop :=
  let T := INR n * dT in n <> 0%nat ->
  exists (n1 : nat) rise fall, Rabs (INR n1 - INR n * f_apex c) <= / 2 /\ rigid rise /\ rigid fall
  /\ (forall t, 0 <= t <= T * f_apex c -> minjerk_pose T s0 s1 0 (f_height c) 0 (f_pitch c) (T * f_apex c) t t (mo_p rise t) (mo_R rise t))
  /\ (forall t, INR n1 * dT <= t <= T -> t <= INR n1 * dT + T * (1 - f_apex c) ->
        minjerk_pose T s0 s1 (f_height c) 0 (f_pitch c) 0 (T * (1 - f_apex c)) t (t - INR n1 * dT) (mo_p fall t) (mo_R fall t))
  /\ forall k x, nth_error out k = Some x -> describes (if Nat.ltb k n1 then rise else fall) (INR k * dT) x.
Definition spline_moves (spl2 : R -> R -> R -> R -> pva) (spl3 : R -> R -> R -> R -> R -> R -> R -> pva) (c : feetcfg) (dT : R) (n : nat) (s0 s1 : step) (out : list reported) : Prop :=
  let T := INR n * dT in n <> 0%nat ->
  exists m, rigid m
  /\ (forall t, 0 <= t <= T ->
        mo_p m t = V3 (p_p (spl2 T (vx (st_pos s0)) (vx (st_pos s1)) t)) (p_p (spl2 T (vy (st_pos s0)) (vy (st_pos s1)) t)) (p_p (spl3 (f_apex c * T) T 0 (f_height c) 0 (f_landing c) t))
        /\ mo_R m t = rpy 0 (p_p (spl3 (f_apex c * T) T 0 (f_pitch c) 0 0 t)) (p_p (spl2 T (st_angle s0) (st_angle s1) t)))
  /\ forall k x, nth_error out k = Some x -> describes m (INR k * dT) x.

Lemma map_rest : forall s n, map report (repeat (rest_at s) n) = repeat (report_rest s) n.
Proof. intros s. induction n as [|n IH]; cbn [repeat map]; [|rewrite IH, (proj1 (C77_rest s))]; reflexivity. Qed.
Lemma loop_pieces : forall (moves : nat -> step -> step -> list reported -> Prop) (swing : nat -> step -> step -> res (list sample)) ph,
  (forall n s0 s1 out, swing n s0 s1 = Ok out -> moves (length out) s0 s1 (map report out)) ->
  forall ends inst st out, feet_loop swing ph ends inst st = Ok out -> pieces moves st (map report out).
Proof.
  intros moves swing ph Hm. induction ends as [|e r IH]; intros inst st out H; cbn [feet_loop] in H; [injection H as <-; constructor|].
  assert (Q : forall s0 st', (if Nat.ltb (length ph) (inst + length (repeat (rest_at s0) (e - inst))) then UB
      else do rest <- feet_loop swing ph r (inst + length (repeat (rest_at s0) (e - inst))) (s0 :: st'); Ok (repeat (rest_at s0) (e - inst) ++ rest)) = Ok out ->
      pieces moves (s0 :: st') (map report out)).
  { intros s0 st' X. destruct (Nat.ltb _ _); [discriminate|]. apply rbind_ok in X. destruct X as (rest & X & Y). injection Y as <-.
    rewrite map_app, map_rest. constructor. eapply IH; exact X. }
  destruct (nth_error ph inst) as [[]|]; destruct st as [|s0 st']; try discriminate; try (apply Q; exact H).
  all: apply rbind_ok in H; destruct H as (n & _ & H); destruct st' as [|s1 st']; [discriminate|].
  all: apply rbind_ok in H; destruct H as (sw & Hs & H); destruct (Nat.ltb _ _); [discriminate|].
  all: apply rbind_ok in H; destruct H as (rest & Hr & H); injection H as <-; rewrite map_app.
  all: eapply pieces_swing; [reflexivity| |eapply IH; exact Hr]; rewrite map_length; eapply Hm; exact Hs.
Qed.

(** C77, minimum jerk generator: whatever [computeNewTrajectories] accepts. *)
Theorem C77_minjerk : forall fops dT left right lph rph shift TL TR, 0 < dT -> let c := feet_history fops in
  feet_compute c dT left right lph rph shift = Ok (TL, TR) ->
  pieces (minjerk_moves c dT) left (map report TL) /\ pieces (minjerk_moves c dT) right (map report TR).
Proof.
  intros fops dT left right lph rph shift TL TR Hd c H. unfold feet_compute in H. apply rbind_ok in H. destruct H as (a & Ha & H).
  apply rbind_ok in H. destruct H as (b & Hb & H). injection H as <- <-. unfold interpolate_foot in Ha, Hb.
  destruct (Rltb (f_height c) 0); [discriminate|].
  assert (M : forall n s0 s1 out, swing_minjerk c dT n s0 s1 = Ok out -> minjerk_moves c dT (length out) s0 s1 (map report out)).
  { intros n s0 s1 out E Hn. destruct (swing_ok c dT n s0 s1 (feet_history_ok fops) Hd) as (o & Eo & Lo & _). rewrite E in Eo. injection Eo as <-.
    rewrite Lo in *. destruct (C77_minjerk_swing fops dT n s0 s1 out Hd ltac:(lia) E) as (n1 & rise & fall & K1 & K2 & K3 & K4 & K5 & K6).
    exists n1, rise, fall. repeat (split; [assumption|]). intros k x Hx. rewrite nth_error_map in Hx. destruct (nth_error out k) as [y|] eqn:Ey; [|discriminate].
    injection Hx as <-. exact (K6 k y Ey). }
  split; eapply loop_pieces; eauto.
Qed.
Print Assumptions C77_minjerk.

(** C77, cubic spline generator. *)
Theorem C77_spline : forall spl2 spl3 fops dT left right lph rph shift TL TR, splines2 spl2 -> splines3 spl3 -> 0 < dT -> let c := feet_history fops in
  spline_compute spl2 spl3 c dT left right lph rph shift = Ok (TL, TR) ->
  pieces (spline_moves spl2 spl3 c dT) left (map report TL) /\ pieces (spline_moves spl2 spl3 c dT) right (map report TR).
Proof.
  intros spl2 spl3 fops dT left right lph rph shift TL TR S2 S3 Hd c H. unfold spline_compute in H. apply rbind_ok in H. destruct H as (a & Ha & H).
  apply rbind_ok in H. destruct H as (b & Hb & H). injection H as <- <-. unfold spline_foot in Ha, Hb.
  destruct (Rltb (f_height c) 0); [discriminate|].
  assert (M : forall n s0 s1 out, swing_spline spl2 spl3 c dT n s0 s1 = Ok out -> spline_moves spl2 spl3 c dT (length out) s0 s1 (map report out)).
  { intros n s0 s1 out E Hn.
    assert (Ln : (1 <= n)%nat /\ length out = n).
    { destruct n as [|n]; [unfold swing_spline in E; cbv zeta in E; rewrite (reqb_t (INR 0 * dT) 0) in E by (cbn; ring); discriminate|].
      split; [lia|]. rewrite swing_list_ok in E by (auto; lia || apply feet_history_ok). injection E as <-. apply swing_list_length. }
    destruct Ln as [Ln Lo]. rewrite Lo in *. destruct (C77_spline_swing spl2 spl3 fops dT n s0 s1 out S2 S3 Hd Ln E) as (m & K1 & K2 & K3).
    exists m. repeat (split; [assumption|]). intros k x Hx. rewrite nth_error_map in Hx. destruct (nth_error out k) as [y|] eqn:Ey; [|discriminate].
    injection Hx as <-. exact (K3 k y Ey). }
  split; eapply loop_pieces; eauto.
Qed.
Print Assumptions C77_spline.
Example C77_trajectory_example : exists out TL TR, generate_phases (settings_after []) stepL stepR 0 1 stepSrt = Ok out
  /\ feet_compute (feet_history [FHeight (5/100)]) 1 (fp_steps stepL) (fp_steps stepR) (ph_left (go_ph out)) (ph_right (go_ph out)) (ph_shift (go_ph out)) = Ok (TL, TR)
  /\ length TR = length (ph_right (go_ph out)) /\ nth_error (ph_right (go_ph out)) 2 = Some Swing.
Proof.
  destruct C44_example as (out & A & B & C & D & _). exists out.
  destruct (C44_still_outside_swing_partial [] [FHeight (5/100)] stepL stepR 0 1 stepSrt out step_sort A B C) as (TL & TR & l0 & r0 & E & _ & _ & F).
  exists TL, TR. repeat split; auto. apply (F false).
Qed.

(** A turning and pitching foot: both components of the angular velocity matter. *)
Example C77_example : let s := MkSample (MkPva 0 1 0) (still 0) (still 0) (MkPva 0 1 0) (MkPva (PI / 2) 2 0) in
  rp_ang (report s) = V3 (- 1) 0 2 /\ rp_angacc (report s) = V3 0 (- 2) 0.
Proof.
  cbn. unfold mv, dot3, rpy_map, rpy_map_rate, v3plus. cbn. rewrite sin_0, cos_0, sin_PI2, cos_PI2. split; f_equal; ring.
Qed.
Example C77_swing_example : exists out, swing_minjerk (feet_history [FHeight (5/100)]) (1/10) 4 (MkStep (V2 0 0) 0 0 "right"%string) (MkStep (V2 1 0) 1 2 "right"%string) = Ok out /\ length out = 4%nat.
Proof.
  destruct (swing_ok (feet_history [FHeight (5/100)]) (1/10) 4 (MkStep (V2 0 0) 0 0 "right"%string) (MkStep (V2 1 0) 1 2 "right"%string) (feet_history_ok _) ltac:(lra)) as (o & E & L & _). exists o. auto.
Qed.
