(** C72, C73: feet trajectories of the cubic spline generator. *)
From Coq Require Import String Reals Lra Lia List Bool Psatz.
From Verif Require Import Prelude EvalTac Rounding FootPrint GenPhases GenSpec GenProofs GenProofs2 GenProofs3 GenProofs4 FeetTraj FeetSpec FeetProofs FeetProofs2 FeetProofs3 CoMHeightSpec
  Properties_Generator Properties_Feet FeetSpline FeetSplineSpec FeetSplineProofs.
Import ListNotations.
Open Scope R_scope.

(** The contract of the splines can be met: these are the splines. *)
Definition the_spl2 (T a b t : R) : pva := cubic a 0 (3 * (b - a) / T ^ 2) (-2 * (b - a) / T ^ 3) t.
Definition the_knot (T1 T2 a m b v : R) : R := (3 * (m - a) * T2 / T1 + 3 * (b - m) * T1 / T2 - v * T1) / (2 * (T1 + T2)).
Definition the_spl3 (T1 T a m b v t : R) : pva :=
  let T2 := T - T1 in let w := the_knot T1 T2 a m b v in
  if Rltb t T1 then cubic a 0 ((3 * (m - a) - w * T1) / T1 ^ 2) ((w * T1 - 2 * (m - a)) / T1 ^ 3) t
  else cubic m w ((3 * (b - m) - 2 * w * T2 - v * T2) / T2 ^ 2) ((w * T2 + v * T2 - 2 * (b - m)) / T2 ^ 3) (t - T1).
Lemma the_splines2 : splines2 the_spl2.
Proof.
  intros T a b HT. exists a, 0, (3 * (b - a) / T ^ 2), (-2 * (b - a) / T ^ 3). split; [reflexivity|]. cbn. repeat split; try field; lra.
Qed.
Lemma the_splines3 : splines3 the_spl3.
Proof.
  intros T1 T a m b v H. set (T2 := T - T1). set (w := the_knot T1 T2 a m b v). assert (H2 : 0 < T2) by (unfold T2; lra).
  exists a, 0, ((3 * (m - a) - w * T1) / T1 ^ 2), ((w * T1 - 2 * (m - a)) / T1 ^ 3), m, w, ((3 * (b - m) - 2 * w * T2 - v * T2) / T2 ^ 2), ((w * T2 + v * T2 - 2 * (b - m)) / T2 ^ 3).
  assert (J : cubic a 0 ((3 * (m - a) - w * T1) / T1 ^ 2) ((w * T1 - 2 * (m - a)) / T1 ^ 3) T1
     = cubic m w ((3 * (b - m) - 2 * w * T2 - v * T2) / T2 ^ 2) ((w * T2 + v * T2 - 2 * (b - m)) / T2 ^ 3) 0).
  { unfold cubic. f_equal; [field; lra|field; lra|]. unfold w, the_knot. field. lra. }
  assert (Z : T1 - T1 = 0) by ring.
  split.
  { intros t Ht. unfold the_spl3. fold T2. fold w. destruct (Req_dec t T1) as [->|N]; [|rewrite rltb_t by lra; reflexivity].
    rewrite rltb_f by lra. rewrite Z. symmetry. exact J. }
  split; [intros t Ht; unfold the_spl3; fold T2; fold w; rewrite rltb_f by lra; reflexivity|].
  unfold the_spl3. fold T2. fold w. rewrite (rltb_t 0 T1), (rltb_f T1 T1), (rltb_f T T1) by lra. fold T2. cbn [cubic p_p p_v]. 
  repeat split; try exact J; try (cbn; ring); cbn; try rewrite Z; field; lra.
Qed.

(** C72: a swing.  The progress along the segment starts at 0, never goes back and reaches 1 when the swing is over. *)
Theorem C72_swing_along_segment : forall spl2 spl3 fops dT n s0 s1, splines2 spl2 -> splines3 spl3 -> 0 < dT -> (1 <= n)%nat ->
  let c := feet_history fops in
  exists out prog, swing_spline spl2 spl3 c dT n s0 s1 = Ok out /\ length out = n
  /\ prog 0%nat = 0 /\ prog n = 1 /\ (forall k, (k < n)%nat -> prog k <= prog (S k))
  /\ (forall k x, nth_error out k = Some x ->
        p_p (s_x x) = vx (st_pos s0) + prog k * (vx (st_pos s1) - vx (st_pos s0))
        /\ p_p (s_y x) = vy (st_pos s0) + prog k * (vy (st_pos s1) - vy (st_pos s0))
        /\ p_p (s_yaw x) = st_angle s0 + prog k * (st_angle s1 - st_angle s0)
        /\ (INR k = f_apex c * INR n -> p_p (s_z x) = f_height c /\ p_p (s_pitch x) = f_pitch c))
  /\ (forall x, nth_error out 0 = Some x -> at_rest s0 x /\ p_p (s_z x) = 0 /\ p_v (s_z x) = 0 /\ p_p (s_pitch x) = 0 /\ p_v (s_pitch x) = 0).
Proof.
  intros spl2 spl3 fops dT n s0 s1 S2 S3 Hd Hn c. pose proof (feet_history_ok fops) as Hc. fold c in Hc. pose proof (fk_apex c Hc) as Ha.
  exists (swing_list spl2 spl3 c dT n s0 s1), (fun k => ease (INR k * dT / (INR n * dT))).
  assert (Tn : 0 < INR n * dT) by (apply Rmult_lt_0_compat; [apply lt_0_INR; lia|lra]).
  split; [apply swing_list_ok; auto|]. split; [apply swing_list_length|].
  split; [cbn; unfold ease, Rdiv; ring|]. split; [unfold ease; field; split; [lra|apply not_0_INR; lia]|]. split.
  { intros k Hk. destruct (sample_time n k dT Hd Hk) as (_ & B & N). assert (M : INR (S k) * dT <= INR n * dT).
    { apply Rmult_le_compat_r; [lra|]. apply le_INR. lia. }
    assert (M2 : INR k * dT <= INR (S k) * dT) by (rewrite S_INR; lra).
    pose proof (norm_range (INR (S k) * dT) (INR n * dT) Tn ltac:(lra)). apply ease_mono; [split; [lra|]|lra].
    apply Rmult_le_compat_r; [left; apply Rinv_0_lt_compat; lra|exact M2]. }
  split.
  { intros k x Hx. destruct (swing_list_nth _ _ _ _ _ _ _ _ _ Hx) as (L & ->). destruct (sample_time n k dT Hd L) as (_ & B & N). cbv zeta.
    cbn [s_x s_y s_z s_pitch s_yaw].
    rewrite (clamped2_shape _ _ _ _ Tn (S2 _ (vx (st_pos s0)) (vx (st_pos s1)) Tn) _ B), (clamped2_shape _ _ _ _ Tn (S2 _ (vy (st_pos s0)) (vy (st_pos s1)) Tn) _ B),
      (clamped2_shape _ _ _ _ Tn (S2 _ (st_angle s0) (st_angle s1) Tn) _ B). cbn [p_p].
    split; [ring|]. split; [ring|]. split; [ring|]. intros E.
    assert (T1 : 0 < f_apex c * (INR n * dT) < INR n * dT) by nra.
    replace (INR k * dT) with (f_apex c * (INR n * dT)) by (rewrite E; ring).
    destruct (S3 _ _ 0 (f_height c) 0 (f_landing c) T1) as (? & ? & ? & ? & ? & ? & ? & ? & _ & _ & _ & _ & E1 & _).
    destruct (S3 _ _ 0 (f_pitch c) 0 0 T1) as (? & ? & ? & ? & ? & ? & ? & ? & _ & _ & _ & _ & E2 & _). split; assumption. }
  intros x Hx. destruct (swing_list_nth _ _ _ _ _ _ _ _ _ Hx) as (L & ->). cbv zeta. unfold at_rest. cbn [s_x s_y s_z s_pitch s_yaw INR].
  replace (0 * dT) with 0 by ring. assert (T1 : 0 < f_apex c * (INR n * dT) < INR n * dT) by nra.
  destruct (S3 _ _ 0 (f_height c) 0 (f_landing c) T1) as (? & ? & ? & ? & ? & ? & ? & ? & _ & _ & E1 & E2 & _).
  destruct (S3 _ _ 0 (f_pitch c) 0 0 T1) as (? & ? & ? & ? & ? & ? & ? & ? & _ & _ & E3 & E4 & _).
  destruct (S2 _ (vx (st_pos s0)) (vx (st_pos s1)) Tn) as (? & ? & ? & ? & _ & X1 & X2 & _).
  destruct (S2 _ (vy (st_pos s0)) (vy (st_pos s1)) Tn) as (? & ? & ? & ? & _ & Y1 & Y2 & _).
  destruct (S2 _ (st_angle s0) (st_angle s1) Tn) as (? & ? & ? & ? & _ & W1 & W2 & _).
  repeat split; assumption.
Qed.
Print Assumptions C72_swing_along_segment.
Example C72_example : splines2 the_spl2 /\ splines3 the_spl3
  /\ exists out x, swing_spline the_spl2 the_spl3 (feet_history [FHeight (5/100)]) (1/10) 10 (MkStep vzero 0 0 "r") (MkStep (V2 (1/5) 0) 0 1 "r") = Ok out
     /\ nth_error out 5 = Some x /\ p_p (s_x x) = 1 / 10 /\ p_p (s_z x) = 5 / 100.
Proof.
  split; [exact the_splines2|]. split; [exact the_splines3|].
  destruct (C72_swing_along_segment the_spl2 the_spl3 [FHeight (5/100)] (1/10) 10 (MkStep vzero 0 0 "r") (MkStep (V2 (1/5) 0) 0 1 "r") the_splines2 the_splines3 ltac:(lra) ltac:(lia))
    as (out & prog & E & L & _ & _ & _ & P & _).
  destruct (nth_error out 5) as [x|] eqn:Ex; [|apply nth_error_None in Ex; lia]. exists out, x. split; [exact E|]. split; [exact Ex|].
  destruct (P 5%nat x Ex) as (_ & _ & _ & Z). 
  assert (F : f_height (feet_history [FHeight (5/100)]) = 5 / 100 /\ f_apex (feet_history [FHeight (5/100)]) = 1 / 2)
    by (cbn; rewrite rltb_f by lra; cbn; split; reflexivity).
  split; [|destruct Z as [-> _]; [rewrite (proj2 F); cbn; field|apply F]].
  rewrite (swing_list_ok the_spl2 the_spl3 _ (1/10) 10 _ _ (feet_history_ok _) ltac:(lra) ltac:(lia)) in E. injection E as <-.
  destruct (swing_list_nth _ _ _ _ _ _ _ _ _ Ex) as (_ & ->). cbn. field.
Qed.

(** C72 for a whole walk. *)
Theorem C72_walk : forall spl2 spl3 ops fops left right init dT srt out, splines2 spl2 -> splines3 spl3 ->
  sort_result (fp_steps left) (fp_steps right) srt ->
  generate_phases (settings_after ops) left right init dT srt = Ok out -> no_empty_phase (go_ph out) ->
  let c := feet_history fops in let ph := go_ph out in let pl := planned (go_ord out) in
  0 <= f_height c ->
  exists TL TR l0 r0, spline_compute spl2 spl3 c dT (fp_steps left) (fp_steps right) (ph_left ph) (ph_right ph) (ph_shift ph) = Ok (TL, TR)
  /\ hd_error (fp_steps left) = Some l0 /\ hd_error (fp_steps right) = Some r0
  /\ forall b : bool, let T := if b then TL else TR in let first := if b then l0 else r0 in
     length T = length (foot_phases ph b)
     /\ forall i, (i < length T)%nat -> exists (s : step) (x : sample), stands_on first pl ph b i s /\ nth_error T i = Some x
        /\ (nth_error (foot_phases ph b) i <> Some Swing -> x = rest_at s)
        /\ (nth_error (foot_phases ph b) i = Some Swing ->
             exists k t l, nth_error pl k = Some t /\ t_left t = b /\ (bnd ph (2 * k + 1) <= i < bnd ph (2 * k + 2))%nat
               /\ 0 <= l <= 1
               /\ p_p (s_x x) = vx (st_pos s) + l * (vx (st_pos (t_step t)) - vx (st_pos s))
               /\ p_p (s_y x) = vy (st_pos s) + l * (vy (st_pos (t_step t)) - vy (st_pos s))
               /\ p_p (s_yaw x) = st_angle s + l * (st_angle (t_step t) - st_angle s)
               /\ (f_landing c = 0 -> 0 <= p_p (s_z x) <= overshoot (f_apex c) * f_height c)).
Proof.
  intros spl2 spl3 ops fops left right init dT srt out S2 S3 Hs H Hne c ph pl Hh. pose proof (feet_history_ok fops) as Hc. fold c in Hc.
  assert (Hd : 0 < dT). { destruct (generate_inv _ _ _ _ _ _ _ (good_history ops) H) as (? & ? & _ & _ & D & _). auto. }
  set (sw := swing_list spl2 spl3 c dT).
  assert (Lsw : forall n s0 s1, length (sw n s0 s1) = n) by (intros; apply swing_list_length).
  assert (X : forall b, exists first T, hd_error (foot_list (fp_steps left) (fp_steps right) b) = Some first
    /\ feet_loop (swing_spline spl2 spl3 c dT) (foot_phases (go_ph out) b) (tl (ph_shift (go_ph out))) 0 (foot_list (fp_steps left) (fp_steps right) b) = Ok T
    /\ follows sw first (planned (go_ord out)) (go_ph out) b T).
  { intros b. destruct (generated_feet ops left right init dT srt out (fun n s0 s1 => Ok (sw n s0 s1)) sw Hs H Hne (fun _ _ _ => eq_refl) Lsw b) as (first & T & F & E & FT).
    exists first, T. split; [exact F|]. split; [|exact FT].
    eapply (feet_loop_ext (swing_spline spl2 spl3 c dT) (fun n s0 s1 => Ok (sw n s0 s1)) sw); auto.
    - intros n s0 s1 Hn. apply swing_list_ok; auto.
    - destruct (generate_inv _ _ _ _ _ _ _ (good_history ops) H) as (? & ? & _ & _ & _ & _ & _ & _ & _ & _ & P & _). destruct P.
      intros i u w A B. destruct (ph_shift (go_ph out)) as [|z zs] eqn:Ez.
      + destruct i; cbn in B; [discriminate|destruct i; discriminate].
      + cbn [tl] in *. assert (z = 0%nat) by (unfold bnd in p_hd; rewrite Ez in p_hd; exact p_hd). subst z.
        apply (Hne i); rewrite Ez; assumption. }
  destruct (X true) as (l0 & TL & F1 & EL & FL). destruct (X false) as (r0 & TR & F2 & ER & FR).
  exists TL, TR, l0, r0. split.
  { unfold spline_compute, spline_foot. rewrite (rltb_f (f_height c) 0) by lra. cbn [foot_list foot_phases] in EL, ER.
    fold ph in EL, ER. rewrite EL. cbn [rbind]. rewrite ER. reflexivity. }
  split; [exact F1|]. split; [exact F2|]. intros b T first.
  assert (FT : follows sw first pl ph b T) by (destruct b; assumption). destruct FT as [LT FT]. split; [exact LT|].
  intros i Hi. destruct (FT i Hi) as (s & G1 & G2 & G3).
  destruct (nth_error T i) as [x|] eqn:Ex; [|apply nth_error_None in Ex; lia]. exists s, x. split; [exact G1|]. split; [reflexivity|]. split.
  - intros C. specialize (G2 C). congruence.
  - intros C. destruct (G3 C) as (k & t & K1 & K2 & K3 & K4). symmetry in K4.
    set (n := (bnd ph (2 * k + 2) - bnd ph (2 * k + 1))%nat) in *.
    destruct (swing_list_nth _ _ _ _ _ _ _ _ _ K4) as (L & Ex'). destruct (sample_time n _ dT Hd L) as (Tn & B & N).
    exists k, t, (ease (INR (i - bnd ph (2 * k + 1)) * dT / (INR n * dT))). repeat (split; [assumption|]). split; [apply ease_range; exact N|].
    rewrite Ex'. cbv zeta. cbn [s_x s_y s_z s_yaw].
    rewrite (clamped2_shape _ _ _ _ Tn (S2 _ (vx (st_pos s)) (vx (st_pos (t_step t))) Tn) _ B), (clamped2_shape _ _ _ _ Tn (S2 _ (vy (st_pos s)) (vy (st_pos (t_step t))) Tn) _ B),
      (clamped2_shape _ _ _ _ Tn (S2 _ (st_angle s) (st_angle (t_step t)) Tn) _ B). cbn [p_p].
    split; [ring|]. split; [ring|]. split; [ring|]. intros Hv. pose proof (fk_apex c Hc) as Ha.
    assert (T1 : 0 < f_apex c * (INR n * dT) < INR n * dT) by nra.
    destruct (bump (f_apex c) (INR n * dT) (f_height c) (f_landing c) Ha Tn _ (S3 _ _ _ _ _ _ T1) Hv _ B) as (g & G & E).
    rewrite E. split; [apply Rmult_le_pos; lra|]. rewrite Rmult_comm. apply Rmult_le_compat_r; lra.
Qed.
Print Assumptions C72_walk.
Example C72_walk_example : exists out, generate_phases (settings_after []) stepL stepR 0 1 stepSrt = Ok out
  /\ no_empty_phase (go_ph out) /\ 0 <= f_height (feet_history [FHeight (5/100)]) /\ nth_error (ph_right (go_ph out)) 2 = Some Swing.
Proof. destruct C44_example as (out & A & B & C & D & _). exists out. auto. Qed.

(** C73: with the default apex and landing velocity the foot stays between the ground and the step height. *)
Theorem C73_default_partial : forall spl2 spl3 fops dT n s0 s1, splines2 spl2 -> splines3 spl3 -> 0 < dT -> (1 <= n)%nat ->
  let c := feet_history fops in 0 <= f_height c -> f_apex c = 1 / 2 -> f_landing c = 0 ->
  exists out, swing_spline spl2 spl3 c dT n s0 s1 = Ok out /\ length out = n /\ forall x, In x out -> on_the_way (f_height c) s0 s1 x.
Proof.
  intros spl2 spl3 fops dT n s0 s1 S2 S3 Hd Hn c Hh Ha Hv. pose proof (feet_history_ok fops) as Hc. fold c in Hc.
  exists (swing_list spl2 spl3 c dT n s0 s1). split; [apply swing_list_ok; auto|]. split; [apply swing_list_length|].
  intros x Hx. apply In_nth_error in Hx. destruct Hx as [k Hk]. destruct (swing_list_nth _ _ _ _ _ _ _ _ _ Hk) as (L & ->).
  destruct (sample_time n k dT Hd L) as (Tn & B & N). cbv zeta. split; cbn [s_x s_y s_z s_yaw].
  - exists (ease (INR k * dT / (INR n * dT))). split; [apply ease_range; exact N|].
    rewrite (clamped2_shape _ _ _ _ Tn (S2 _ (vx (st_pos s0)) (vx (st_pos s1)) Tn) _ B), (clamped2_shape _ _ _ _ Tn (S2 _ (vy (st_pos s0)) (vy (st_pos s1)) Tn) _ B),
      (clamped2_shape _ _ _ _ Tn (S2 _ (st_angle s0) (st_angle s1) Tn) _ B). cbn [p_p]. repeat split; ring.
  - pose proof (fk_apex c Hc) as Ha'. assert (T1 : 0 < f_apex c * (INR n * dT) < INR n * dT) by nra.
    destruct (bump (f_apex c) (INR n * dT) (f_height c) (f_landing c) Ha' Tn _ (S3 _ _ _ _ _ _ T1) Hv _ B) as (g & G & E).
    assert (O : overshoot (f_apex c) = 1).
    { rewrite Ha. unfold overshoot. replace (Rmin (1 / 2) (1 - 1 / 2)) with (1 / 2) by (unfold Rmin; destruct (Rle_dec _ _); lra). cbv zeta. field. }
    rewrite O in G. rewrite E. nra.
Qed.
Print Assumptions C73_default_partial.
Example C73_default_example : f_apex (feet_history [FHeight (5/100)]) = 1 / 2 /\ f_landing (feet_history [FHeight (5/100)]) = 0 /\ f_height (feet_history [FHeight (5/100)]) = 5 / 100.
Proof. cbn. rewrite rltb_f by lra. cbn. repeat split. Qed.

(** C73 for every apex, landing velocity zero: the height is at most [overshoot] times the step height, and likewise for
    the pitch; the continuous curve reaches the bound, so it is the best one.  Missing for the full C73: the bound is larger than the
    step height unless the apex is in the middle, see [C73_step_height_refuted]. *)
Theorem C73_height_bound_partial : forall spl2 spl3 fops dT n s0 s1 (out : list sample), splines3 spl3 -> 0 < dT -> (1 <= n)%nat ->
  let c := feet_history fops in swing_spline spl2 spl3 c dT n s0 s1 = Ok out ->
  (forall x, In x out -> Rabs (p_p (s_pitch x)) <= overshoot (f_apex c) * Rabs (f_pitch c))
  /\ (0 <= f_height c -> f_landing c = 0 -> forall x, In x out -> 0 <= p_p (s_z x) <= overshoot (f_apex c) * f_height c)
  /\ (f_landing c = 0 -> exists t, 0 <= t <= INR n * dT
        /\ p_p (spl3 (f_apex c * (INR n * dT)) (INR n * dT) 0 (f_height c) 0 (f_landing c) t) = overshoot (f_apex c) * f_height c).
Proof.
  intros spl2 spl3 fops dT n s0 s1 out S3 Hd Hn c E. pose proof (feet_history_ok fops) as Hc. fold c in Hc. pose proof (fk_apex c Hc) as Ha.
  rewrite swing_list_ok in E by auto. injection E as <-.
  assert (Tn : 0 < INR n * dT) by (apply Rmult_lt_0_compat; [apply lt_0_INR; lia|lra]).
  assert (T1 : 0 < f_apex c * (INR n * dT) < INR n * dT) by nra. split; [|split].
  - intros x Hx. apply In_nth_error in Hx. destruct Hx as [k Hk]. destruct (swing_list_nth _ _ _ _ _ _ _ _ _ Hk) as (L & ->).
    destruct (sample_time n k dT Hd L) as (_ & B & _). cbv zeta. cbn [s_pitch].
    destruct (bump (f_apex c) (INR n * dT) (f_pitch c) 0 Ha Tn _ (S3 _ _ _ _ _ _ T1) eq_refl _ B) as (g & G & ->).
    rewrite Rabs_mult, (Rabs_right g) by lra. rewrite Rmult_comm. apply Rmult_le_compat_r; [apply Rabs_pos|lra].
  - intros Hh Hv x Hx. apply In_nth_error in Hx. destruct Hx as [k Hk]. destruct (swing_list_nth _ _ _ _ _ _ _ _ _ Hk) as (L & ->).
    destruct (sample_time n k dT Hd L) as (_ & B & _). cbv zeta. cbn [s_z].
    destruct (bump (f_apex c) (INR n * dT) (f_height c) (f_landing c) Ha Tn _ (S3 _ _ _ _ _ _ T1) Hv _ B) as (g & G & ->). nra.
  - intros Hv. destruct (bump_reached (f_apex c) (INR n * dT) (f_height c) (f_landing c) Ha Tn _ (S3 _ _ _ _ _ _ T1) Hv) as (t & Ht & Et).
    exists t. split; [exact Ht|]. rewrite Et. ring.
Qed.
Print Assumptions C73_height_bound_partial.
Example C73_bound_example : overshoot (1 / 2) = 1 /\ overshoot (3 / 10) = 625 / 540.
Proof.
  unfold overshoot. split; [replace (Rmin (1 / 2) (1 - 1 / 2)) with (1 / 2)|replace (Rmin (3 / 10) (1 - 3 / 10)) with (3 / 10)];
    try (unfold Rmin; destruct (Rle_dec _ _); lra); cbv zeta; field.
Qed.

(** C73: exactly when the vertical curve stays above the ground. *)
Theorem C73_above_ground_iff_partial : forall spl3 fops T, splines3 spl3 -> 0 < T -> let c := feet_history fops in
  0 <= f_height c ->
  ((forall t, 0 <= t <= T -> 0 <= p_p (spl3 (f_apex c * T) T 0 (f_height c) 0 (f_landing c) t))
   <-> f_landing c <= 0 /\ - f_landing c * (f_apex c ^ 2 * (1 - f_apex c) * T) <= 3 * f_height c).
Proof.
  intros spl3 fops T S3 HT c Hh. pose proof (feet_history_ok fops) as Hc. fold c in Hc. pose proof (fk_apex c Hc) as Ha.
  pose proof (S3 (f_apex c * T) T 0 (f_height c) 0 (f_landing c) ltac:(nra)) as C. split.
  - intros H. split.
    + destruct (Rle_or_lt (f_landing c) 0) as [L|L]; [exact L|]. destruct (below_end _ _ _ _ Ha HT _ C Hh L) as (t & Ht & Z). specialize (H t ltac:(lra)). lra.
    + match goal with |- ?a <= ?b => destruct (Rle_or_lt a b) as [L|L] end; [exact L|].
      destruct (below_start _ _ _ _ Ha HT _ C Hh L) as (t & Ht & Z). specialize (H t ltac:(lra)). lra.
  - intros [L1 L2] t Ht. apply (above _ _ _ _ Ha HT _ C Hh L1 L2 t Ht).
Qed.
Print Assumptions C73_above_ground_iff_partial.

(** C73 for the samples. *)
Theorem C73_above_ground_partial : forall spl2 spl3 fops dT n s0 s1 (out : list sample), splines3 spl3 -> 0 < dT -> (1 <= n)%nat ->
  let c := feet_history fops in 0 <= f_height c ->
  f_landing c <= 0 -> - f_landing c * (f_apex c ^ 2 * (1 - f_apex c) * (INR n * dT)) <= 3 * f_height c ->
  swing_spline spl2 spl3 c dT n s0 s1 = Ok out -> forall x, In x out -> 0 <= p_p (s_z x).
Proof.
  intros spl2 spl3 fops dT n s0 s1 out S3 Hd Hn c Hh L1 L2 E x Hx. pose proof (feet_history_ok fops) as Hc. fold c in Hc.
  rewrite swing_list_ok in E by auto. injection E as <-. apply In_nth_error in Hx. destruct Hx as [k Hk].
  destruct (swing_list_nth _ _ _ _ _ _ _ _ _ Hk) as (L & ->). destruct (sample_time n k dT Hd L) as (Tn & B & _). cbv zeta. cbn [s_z].
  apply (proj2 (C73_above_ground_iff_partial spl3 fops _ S3 Tn Hh)); auto.
Qed.
Print Assumptions C73_above_ground_partial.
Definition landing_cfg : list feetop := [FHeight (5/100); FLanding (-1/10)].
Lemma landing_values : feet_history landing_cfg = MkFC (5/100) 0 (1/2) (-1/10).
Proof. cbn. rewrite rltb_f by lra. reflexivity. Qed.
Example C73_above_ground_example : let c := feet_history landing_cfg in
  0 <= f_height c /\ f_landing c <= 0 /\ - f_landing c * (f_apex c ^ 2 * (1 - f_apex c) * (INR 10 * (1 / 10))) <= 3 * f_height c.
Proof. cbv zeta. rewrite landing_values. cbn. lra. Qed.

(** C73, finding: the apex at a tenth of the swing and a step height of 5 cm; four tenths of a second after take-off the foot is at 12.6 cm. *)
Theorem C73_step_height_refuted : exists fops n dT, 0 < dT /\ forall spl2 spl3 s0 s1, splines3 spl3 -> exists out x,
  swing_spline spl2 spl3 (feet_history fops) dT n s0 s1 = Ok out /\ In x out /\ f_landing (feet_history fops) = 0
  /\ 0 < f_height (feet_history fops) /\ 5 / 2 * f_height (feet_history fops) < p_p (s_z x).
Proof.
  exists [FHeight (5/100); FApex (1/10)], 10%nat, (1/10). split; [lra|]. intros spl2 spl3 s0 s1 S3.
  assert (F : feet_history [FHeight (5/100); FApex (1/10)] = MkFC (5/100) 0 (1/10) 0).
  { cbn. rewrite rltb_f by lra. cbn. unfold Rgeb. rewrite (rleb_f (1/10) 0), (rleb_f 1 (1/10)) by lra. reflexivity. }
  pose proof (feet_history_ok [FHeight (5/100); FApex (1/10)]) as Hc. rewrite F in *. set (c := MkFC (5/100) 0 (1/10) 0) in *.
  assert (E : swing_spline spl2 spl3 c (1/10) 10 s0 s1 = Ok (swing_list spl2 spl3 c (1/10) 10 s0 s1)) by (apply swing_list_ok; [exact Hc|lra|lia]).
  destruct (nth_error (swing_list spl2 spl3 c (1/10) 10 s0 s1) 4) as [x|] eqn:Ex; [|apply nth_error_None in Ex; rewrite swing_list_length in Ex; lia].
  exists (swing_list spl2 spl3 c (1/10) 10 s0 s1), x. split; [exact E|]. split; [eapply nth_error_In; exact Ex|]. split; [reflexivity|]. split; [cbn; lra|].
  destruct (swing_list_nth _ _ _ _ _ _ _ _ _ Ex) as (_ & ->). cbv zeta. cbn [s_z]. cbn [c f_apex f_height f_landing].
  assert (A : 0 < 1 / 10 < 1) by lra. assert (TT : 0 < INR 10 * (1 / 10)) by (cbn; lra).
  pose proof (fall_at (1/10) (INR 10 * (1/10)) (5/100) 0 A TT _ (S3 (1 / 10 * (INR 10 * (1 / 10))) (INR 10 * (1 / 10)) 0 (5/100) 0 0 ltac:(cbn; lra)) (1/3) ltac:(lra)) as Q.
  replace (INR 4 * (1 / 10)) with (1 / 10 * (INR 10 * (1 / 10)) + 1 / 3 * ((1 - 1 / 10) * (INR 10 * (1 / 10)))) by (cbn; lra).
  rewrite Q. unfold hump, steep. field_simplify. lra.
Qed.
Print Assumptions C73_step_height_refuted.

(** C73, finding: any positive landing velocity is accepted and brings the foot below the ground. *)
Theorem C73_landing_velocity_refuted : 
  (forall c v, 0 < v -> snd (feet_call c (FLanding v)) = true)
  /\ (forall spl3 fops T, splines3 spl3 -> 0 < T -> let c := feet_history fops in 0 <= f_height c -> 0 < f_landing c ->
       exists t, 0 <= t < T /\ p_p (spl3 (f_apex c * T) T 0 (f_height c) 0 (f_landing c) t) < 0)
  /\ exists fops n dT, 0 < dT /\ forall spl2 spl3 s0 s1, splines3 spl3 -> exists out x,
       swing_spline spl2 spl3 (feet_history fops) dT n s0 s1 = Ok out /\ In x out /\ p_p (s_z x) < - (6 / 100).
Proof.
  split; [reflexivity|]. split.
  { intros spl3 fops T S3 HT c Hh Hv. pose proof (feet_history_ok fops) as Hc. fold c in Hc. pose proof (fk_apex c Hc) as Ha.
    assert (T1 : 0 < f_apex c * T < T) by nra. exact (below_end _ _ _ _ Ha HT _ (S3 _ _ _ _ _ _ T1) Hh Hv). }
  exists [FHeight (5/100); FLanding 1], 10%nat, (1/10). split; [lra|]. intros spl2 spl3 s0 s1 S3.
  assert (F : feet_history [FHeight (5/100); FLanding 1] = MkFC (5/100) 0 (1/2) 1) by (cbn; rewrite rltb_f by lra; reflexivity).
  pose proof (feet_history_ok [FHeight (5/100); FLanding 1]) as Hc. rewrite F in *. set (c := MkFC (5/100) 0 (1/2) 1) in *.
  assert (E : swing_spline spl2 spl3 c (1/10) 10 s0 s1 = Ok (swing_list spl2 spl3 c (1/10) 10 s0 s1)) by (apply swing_list_ok; [exact Hc|lra|lia]).
  destruct (nth_error (swing_list spl2 spl3 c (1/10) 10 s0 s1) 9) as [x|] eqn:Ex; [|apply nth_error_None in Ex; rewrite swing_list_length in Ex; lia].
  exists (swing_list spl2 spl3 c (1/10) 10 s0 s1), x. split; [exact E|]. split; [eapply nth_error_In; exact Ex|].
  destruct (swing_list_nth _ _ _ _ _ _ _ _ _ Ex) as (_ & ->). cbv zeta. cbn [s_z]. cbn [c f_apex f_height f_landing].
  assert (A : 0 < 1 / 2 < 1) by lra. assert (TT : 0 < INR 10 * (1 / 10)) by (cbn; lra).
  pose proof (fall_at (1/2) (INR 10 * (1/10)) (5/100) 1 A TT _ (S3 (1 / 2 * (INR 10 * (1 / 10))) (INR 10 * (1 / 10)) 0 (5/100) 0 1 ltac:(cbn; lra)) (4/5) ltac:(lra)) as Q.
  replace (INR 9 * (1 / 10)) with (1 / 2 * (INR 10 * (1 / 10)) + 4 / 5 * ((1 - 1 / 2) * (INR 10 * (1 / 10)))) by (cbn; lra).
  rewrite Q. unfold hump, steep. replace (INR 10) with 10 by (cbn; lra). field_simplify. lra.
Qed.
Print Assumptions C73_landing_velocity_refuted.
