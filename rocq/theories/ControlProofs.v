(** Proofs: saturation, rollouts, direct controller. *)
From Coq Require Import Reals Lra Lia List Bool.
From Verif Require Import Prelude EvalTac UnicycleFoot Controllers FootSpec FootProofs ControlSpec.
Import ListNotations.
Open Scope R_scope.

Record base_ok (b : base) : Prop := MkBaseOk {
  bo_lim : (b_maxLin b = -1 /\ b_maxAng b = -1) \/ (0 <= b_maxLin b /\ 0 <= b_maxAng b);
  bo_turn : 0 <= b_turn b; bo_back : 0 <= b_back b; bo_side : 0 <= b_side b }.

Lemma base_history_ok : forall ops, base_ok (base_history ops).
Proof.
  intros ops. unfold base_history. assert (H : base_ok base_new) by (constructor; simpl; lra || (left; auto)).
  revert H. generalize base_new. induction ops as [|o ops IH]; intros b H; [exact H|]. apply IH.
  destruct H as [A B C D]. unfold base_run, base_call. destruct o; unfold base_setSat, base_setTurn, base_setBack, base_setSide; rcases; simpl;
    constructor; simpl; auto; try lra.
Qed.

(** Accepted saturations stay. *)
Definition sat_set (b : base) : Prop := 0 <= b_maxLin b /\ 0 <= b_maxAng b.

Lemma sat_kept : forall b ops, sat_set b -> sat_set (fold_left base_run ops b).
Proof.
  intros b ops; revert b. induction ops as [|o ops IH]; intros b H; [exact H|]. apply IH. unfold sat_set in *.
  unfold base_run, base_call. destruct o; unfold base_setSat, base_setTurn, base_setBack, base_setSide; rcases; simpl; lra.
Qed.

Lemma sat2_bounds : forall x s, 0 <= s -> - s <= saturate2 x s <= s.
Proof. intros x s H. unfold saturate2, saturate3. rcases; simpl; lra. Qed.
Lemma sat3_bounds : forall x p n, 0 <= p -> n <= 0 -> n <= saturate3 x p n <= p.
Proof. intros x p n Hp Hn. unfold saturate3. rcases; simpl; lra. Qed.
Lemma sat3_id : forall x p n, n <= x <= p -> saturate3 x p n = x.
Proof. intros x p n H. unfold saturate3. rcases; simpl; lra. Qed.

Lemma sqrt_sq_abs : forall x, sqrt (x * x) = Rabs x.
Proof. intros x. change (x * x) with (Rsqr x). apply sqrt_Rsqr_abs. Qed.

Lemma turn_pos : forall g w, 0 <= g -> 1 <= 1 + g * Rabs w.
Proof. intros g w H. pose proof (Rmult_le_pos _ _ H (Rabs_pos w)). lra. Qed.

(** Speed allowed when turning at [w]. *)
Definition speed_limit (b : base) (w : R) : R := b_maxLin b / (1 + b_turn b * Rabs w).

Lemma limit_bounds : forall b w, 0 <= b_maxLin b -> 0 <= b_turn b -> 0 <= speed_limit b w <= b_maxLin b.
Proof.
  intros b w H1 H2. unfold speed_limit. pose proof (turn_pos _ w H2) as Hp.
  assert (Hi : 0 < / (1 + b_turn b * Rabs w) <= 1).
  { split; [apply Rinv_0_lt_compat; lra|]. rewrite <- Rinv_1. apply Rinv_le_contravar; lra. }
  unfold Rdiv. split; [apply Rmult_le_pos; lra|]. rewrite <- (Rmult_1_r (b_maxLin b)) at 2. apply Rmult_le_compat_l; lra.
Qed.

Lemma limit_mono : forall b w w', 0 <= b_maxLin b -> 0 <= b_turn b -> Rabs w <= Rabs w' -> speed_limit b w' <= speed_limit b w.
Proof.
  intros b w w' H1 H2 H. unfold speed_limit, Rdiv. apply Rmult_le_compat_l; auto.
  pose proof (turn_pos _ w H2). apply Rinv_le_contravar; [lra|]. apply Rplus_le_compat_l, Rmult_le_compat_l; auto.
Qed.

Lemma base_sat_bounds : forall b raw, base_ok b -> sat_set b ->
  let c := base_sat b raw in
  Rabs (c_ang c) <= b_maxAng b
  /\ - b_back b * speed_limit b (c_ang c) <= c_fwd c <= speed_limit b (c_ang c)
  /\ Rabs (c_lat c) <= b_side b * b_maxLin b.
Proof.
  intros b raw [A B C D] [S1 S2]. cbv zeta. unfold base_sat. cbn [c_fwd c_ang c_lat].
  pose proof (sat2_bounds (c_ang raw) _ S2) as Ha.
  split; [apply Rabs_le; lra|]. rewrite sqrt_sq_abs.
  pose proof (limit_bounds b (saturate2 (c_ang raw) (b_maxAng b)) S1 B) as Hl. unfold speed_limit in *.
  set (v := b_maxLin b / (1 + b_turn b * Rabs (saturate2 (c_ang raw) (b_maxAng b)))) in *.
  split.
  - apply sat3_bounds; [lra|]. pose proof (Rmult_le_pos _ _ C (proj1 Hl)). lra.
  - pose proof (Rmult_le_pos _ _ D S1) as Hs. pose proof (sat2_bounds (c_lat raw) _ Hs). apply Rabs_le; lra.
Qed.

Lemma base_sat_id : forall b raw,
  Rabs (c_ang raw) <= b_maxAng b ->
  - b_back b * speed_limit b (c_ang raw) <= c_fwd raw <= speed_limit b (c_ang raw) ->
  Rabs (c_lat raw) <= b_side b * b_maxLin b -> base_sat b raw = raw.
Proof.
  intros b raw H1 H2 H3. unfold base_sat.
  assert (E : saturate2 (c_ang raw) (b_maxAng b) = c_ang raw).
  { apply sat3_id. unfold Rabs in H1. destruct (Rcase_abs _); lra. }
  rewrite E, sqrt_sq_abs. fold (speed_limit b (c_ang raw)). rewrite sat3_id by auto.
  unfold saturate2. rewrite sat3_id. destruct raw; reflexivity.
  unfold Rabs in H3. destruct (Rcase_abs _); lra.
Qed.

Lemma base_sat_unset : forall b raw, b_maxLin b = -1 -> b_maxAng b = -1 -> 0 <= b_turn b -> 0 <= b_side b ->
  c_ang (base_sat b raw) = c_ang raw /\ c_fwd (base_sat b raw) = c_fwd raw.
Proof.
  intros b raw H1 H2 H3 H4. unfold base_sat. cbn [c_ang c_fwd c_lat].
  assert (E : saturate2 (c_ang raw) (b_maxAng b) = c_ang raw) by (unfold saturate2, saturate3; rewrite H2, rltb_t by lra; reflexivity).
  rewrite E. split; [reflexivity|]. unfold saturate3. rewrite sqrt_sq_abs, H1.
  pose proof (turn_pos _ (c_ang raw) H3). rewrite rltb_t; [reflexivity|].
  unfold Rdiv. assert (0 < / (1 + b_turn b * Rabs (c_ang raw))) by (apply Rinv_0_lt_compat; lra). lra.
Qed.

(** ** Rollouts *)
(** Speed bound of a saturated command. *)
Definition fwd_bound (b : base) : R := Rmax 1 (b_back b) * b_maxLin b.
Definition speed_bound (b : base) : R := sqrt (fwd_bound b * fwd_bound b + (b_side b * b_maxLin b) * (b_side b * b_maxLin b)).

Lemma fwd_bounded : forall b raw, base_ok b -> sat_set b -> Rabs (c_fwd (base_sat b raw)) <= fwd_bound b.
Proof.
  intros b raw Hb Hs. destruct (base_sat_bounds b raw Hb Hs) as (_ & H & _). destruct Hb as [A B C D]. destruct Hs as [S1 S2].
  pose proof (limit_bounds b (c_ang (base_sat b raw)) S1 B) as Hl. unfold fwd_bound.
  set (v := speed_limit b (c_ang (base_sat b raw))) in *.
  pose proof (Rmax_l 1 (b_back b)). pose proof (Rmax_r 1 (b_back b)).
  assert (b_back b * v <= Rmax 1 (b_back b) * b_maxLin b) by (apply Rmult_le_compat; lra).
  assert (v <= Rmax 1 (b_back b) * b_maxLin b).
  { rewrite <- (Rmult_1_l v). apply Rmult_le_compat; lra. }
  apply Rabs_le. lra.
Qed.

Lemma sq_le_abs : forall x y, Rabs x <= y -> x * x <= y * y.
Proof.
  intros x y H. rewrite <- (Rabs_pos_eq (x * x)) by apply Rle_0_sqr. rewrite Rabs_mult.
  apply Rmult_le_compat; auto using Rabs_pos.
Qed.

Lemma dist2d_tri : forall a b c, dist2d a c <= dist2d a b + dist2d b c.
Proof.
  intros a b c. unfold dist2d.
  pose proof (triangle (vx a) (vy a) (vx c) (vy c) (vx b) (vy b)) as H. unfold dist_euc, Rsqr in H.
  rewrite <- !Rsqr_pow2. unfold Rsqr. lra.
Qed.

Lemma dist2d_self : forall a, dist2d a a = 0.
Proof. intros a. unfold dist2d. rewrite !Rminus_diag_eq by reflexivity. replace (0 ^ 2 + 0 ^ 2) with 0 by ring. apply sqrt_0. Qed.

Lemma euler_dist : forall u c h, 0 <= h ->
  dist2d (u_pos (euler u c h)) (u_pos u) = h * sqrt (c_fwd c * c_fwd c + c_lat c * c_lat c).
Proof.
  intros u c h Hh. unfold euler, unicycle_dot, dist2d. cbn.
  replace (_ + _) with ((h * h) * (c_fwd c * c_fwd c + c_lat c * c_lat c)).
  - rewrite sqrt_mult_alt by nra. rewrite sqrt_square by auto. reflexivity.
  - pose proof (cs2 (u_angle u)) as E.
    transitivity ((h * h) * (c_fwd c * c_fwd c + c_lat c * c_lat c) * (cos (u_angle u) * cos (u_angle u) + sin (u_angle u) * sin (u_angle u))); [|ring].
    rewrite E; ring.
Qed.

Lemma speed_bounded : forall b raw, base_ok b -> sat_set b ->
  let c := base_sat b raw in sqrt (c_fwd c * c_fwd c + c_lat c * c_lat c) <= speed_bound b.
Proof.
  intros b raw Hb Hs c. unfold speed_bound. apply sqrt_le_1_alt.
  apply Rplus_le_compat; apply sq_le_abs; [apply fwd_bounded; auto|]. apply base_sat_bounds; auto.
Qed.


Lemma rollout_bounds : forall K (ctl : K -> R -> ustate -> option (K * cmd)) b hs k t u k' t' u',
  base_ok b -> sat_set b -> Forall (fun h => 0 <= h) hs ->
  rollout K ctl b k t u hs = Some (k', t', u') ->
  t' = t + total hs
  /\ Rabs (u_angle u' - u_angle u) <= b_maxAng b * total hs
  /\ dist2d (u_pos u') (u_pos u) <= speed_bound b * total hs.
Proof.
  intros K ctl b hs. induction hs as [|h hs IH]; intros k t u k' t' u' Hb Hs Hh H; cbn [rollout total] in *.
  - injection H as <- <- <-. split; [lra|]. rewrite Rminus_diag_eq, Rabs_R0, dist2d_self by reflexivity. lra.
  - destruct (ctl k t u) as [[k1 raw]|] eqn:E; [|discriminate]. inversion Hh as [|? ? H0 Ht]; subst.
    destruct (IH _ _ _ _ _ _ Hb Hs Ht H) as (A & B & C). clear IH.
    destruct (base_sat_bounds b raw Hb Hs) as (W & _). pose proof (speed_bounded b raw Hb Hs) as V. cbv zeta in W, V.
    set (c := base_sat b raw) in *.
    split; [lra|]. split.
    + replace (u_angle u' - u_angle u) with ((u_angle u' - u_angle (euler u c h)) + h * c_ang c) by (cbn; ring).
      eapply Rle_trans; [apply Rabs_triang|]. rewrite Rabs_mult, (Rabs_pos_eq h) by auto.
      pose proof (Rmult_le_compat_l _ _ _ H0 W). lra.
    + eapply Rle_trans; [apply (dist2d_tri _ (u_pos (euler u c h)))|]. rewrite euler_dist by auto.
      pose proof (Rmult_le_compat_l _ _ _ H0 V). lra.
Qed.

(** ** Direct controller *)
Lemma base_sat_zero : forall b, base_ok b -> base_sat b (MkCmd 0 0 0) = MkCmd 0 0 0.
Proof.
  intros b [A B C D]. unfold base_sat, saturate2, saturate3. cbn [c_fwd c_ang c_lat].
  assert (E : forall p n, 0 <= p -> n <= 0 -> saturate3 0 p n = 0) by (intros; apply sat3_id; lra).
  assert (E' : forall p n, p < 0 -> saturate3 0 p n = 0) by (intros; unfold saturate3; rewrite rltb_t by lra; reflexivity).
  fold (saturate3 0 (b_maxAng b) (- b_maxAng b)). destruct A as [[A1 A2]|[A1 A2]].
  - rewrite A1, A2. rewrite E' by lra. replace (sqrt (0 * 0)) with 0 by (rewrite Rmult_0_l, sqrt_0; reflexivity).
    replace (-1 / (1 + b_turn b * 0)) with (-1) by (field; lra).
    fold (saturate3 0 (-1) (- b_back b * -1)). rewrite E' by lra.
    fold (saturate3 0 (b_side b * -1) (- (b_side b * -1))).
    destruct (Req_dec (b_side b) 0) as [Z|Z]; [rewrite Z, E by lra|rewrite E' by lra]; reflexivity.
  - rewrite E by lra. replace (sqrt (0 * 0)) with 0 by (rewrite Rmult_0_l, sqrt_0; reflexivity).
    replace (b_maxLin b / (1 + b_turn b * 0)) with (b_maxLin b) by (field; lra).
    fold (saturate3 0 (b_maxLin b) (- b_back b * b_maxLin b)). fold (saturate3 0 (b_side b * b_maxLin b) (- (b_side b * b_maxLin b))).
    pose proof (Rmult_le_pos _ _ C A1). pose proof (Rmult_le_pos _ _ D A1). rewrite !E by lra. reflexivity.
Qed.

Lemma euler_zero : forall u h, euler u (MkCmd 0 0 0) h = u.
Proof. intros [[x y] a] h. unfold euler, unicycle_dot. cbn. unfold vadd, vscale; cbn. f_equal; [f_equal|]; ring. Qed.


(** While every sample time is before the end of the pause the unicycle does not move. *)
Lemma direct_pause : forall b hs d t u, base_ok b -> Forall (fun s => s < d_until d) (samples t hs) ->
  exists d', rollout direct direct_ctl b d t u hs = Some (d', t + total hs, u) /\ d_until d' = d_until d /\ d_cmd d' = d_cmd d.
Proof.
  intros b hs. induction hs as [|h hs IH]; intros d t u Hb Ht; cbn [rollout samples total] in *.
  - exists d. rewrite Rplus_0_r. auto.
  - unfold direct_ctl at 1, direct_raw, direct_feedback. cbn [d_time d_until d_cmd].
    inversion Ht as [|? ? H0 H1]; subst. rewrite rltb_t by lra. rewrite base_sat_zero, euler_zero by auto.
    destruct (IH (MkDirect (d_cmd d) t (d_until d)) (t + h) u Hb H1) as (d' & E & F & G).
    exists d'. split; [|auto]. rewrite E. do 3 f_equal. ring.
Qed.

(** Once every sample time has passed the end of the pause, the rollout is the one of the constant, saturated command. *)
Lemma direct_drive : forall b hs d t u, Forall (fun s => d_until d <= s) (samples t hs) ->
  exists d', rollout direct direct_ctl b d t u hs
             = Some (d', t + total hs, fold_left (fun v h => euler v (base_sat b (d_cmd d)) h) hs u)
             /\ d_until d' = d_until d /\ d_cmd d' = d_cmd d.
Proof.
  intros b hs. induction hs as [|h hs IH]; intros d t u Ht; cbn [rollout samples total fold_left] in *.
  - exists d. rewrite Rplus_0_r. auto.
  - unfold direct_ctl at 1, direct_raw, direct_feedback. cbn [d_time d_until d_cmd].
    inversion Ht as [|? ? H0 H1]; subst. rewrite rltb_f by lra.
    destruct (IH (MkDirect (d_cmd d) t (d_until d)) (t + h) (euler u (base_sat b (d_cmd d)) h) H1) as (d' & E & F & G).
    exists d'. split; [|auto]. rewrite E. do 3 f_equal. ring.
Qed.

(** ** Histories mean the last accepted value *)
Record agrees (b : base) (lim : option (R * R)) (turn back side : R) : Prop := MkAgrees {
  ag_lim : match lim with Some (l, a) => b_maxLin b = l /\ b_maxAng b = a /\ 0 <= l /\ 0 <= a
                        | None => b_maxLin b = -1 /\ b_maxAng b = -1 end;
  ag_turn : b_turn b = turn; ag_back : b_back b = back; ag_side : b_side b = side }.

Lemma fold_agrees : forall ops b lim turn back side, agrees b lim turn back side ->
  agrees (fold_left base_run ops b)
    (last_of (fun o => match o with
                    | BSat l a => match nonneg_arg l, nonneg_arg a with Some l, Some a => Some (Some (l, a)) | _, _ => None end
                    | _ => None end) lim ops)
    (last_of (fun o => match o with BTurn g => nonneg_arg g | _ => None end) turn ops)
    (last_of (fun o => match o with BBack g => nonneg_arg g | _ => None end) back ops)
    (last_of (fun o => match o with BSide g => nonneg_arg g | _ => None end) side ops).
Proof.
  induction ops as [|o ops IH]; intros b lm tn bk sd H; [exact H|].
  cbn [fold_left last_of]. apply IH. destruct H as [A B C D].
  unfold base_run, base_call, nonneg_arg. destruct o; unfold base_setSat, base_setTurn, base_setBack, base_setSide; cbn [fst];
    repeat destruct (Rle_dec _ _); rcases; simpl; try lra; constructor; simpl; auto; try lra.
Qed.

Lemma history_agrees : forall ops,
  agrees (base_history ops) (set_limits ops) (set_turn ops) (set_back ops) (set_side ops).
Proof. intros ops. apply fold_agrees. constructor; simpl; auto. Qed.

Lemma abs_bounds : forall x y, Rabs x <= y -> - y <= x <= y.
Proof. intros x y H. unfold Rabs in H. destruct (Rcase_abs x); lra. Qed.

Lemma set_limits_last : forall ops l a, 0 <= l -> 0 <= a -> set_limits (ops ++ [BSat l a]) = Some (l, a).
Proof.
  intros ops l a Hl Ha. unfold set_limits. generalize (None (A := R * R)). induction ops as [|o ops IH]; intros d; cbn [app last_of].
  - unfold nonneg_arg. repeat (destruct (Rle_dec _ _); try lra). reflexivity.
  - apply IH.
Qed.

Lemma total_app : forall a b, total (a ++ b) = total a + total b.
Proof. induction a as [|x a IH]; intros b; cbn; [lra|]. rewrite IH; ring. Qed.

Lemma rollout_app : forall K ctl b hs1 hs2 k t u,
  rollout K ctl b k t u (hs1 ++ hs2)
  = match rollout K ctl b k t u hs1 with Some (k', t', u') => rollout K ctl b k' t' u' hs2 | None => None end.
Proof.
  intros K ctl b. induction hs1 as [|h hs IH]; intros hs2 k t u; cbn; [reflexivity|].
  destruct (ctl k t u) as [[k' raw]|]; auto.
Qed.
