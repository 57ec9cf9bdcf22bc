(** Height between consecutive samples, derivatives, and the runs used as examples. *)
From Coq Require Import String Reals Lra Lia ZArith List Bool Sorting.Sorted Sorting.Permutation.
From Verif Require Import Prelude EvalTac Rounding FootPrint GenPhases GenSpec GenProofs GenProofs2 GenProofs3 GenProofs4
  FeetTraj FeetSpec FeetProofs FeetProofs2.
Import ListNotations.
Open Scope R_scope.

Lemma poly_derive : forall x, derivable_pt_lim poly x (30 * x ^ 4 - 60 * x ^ 3 + 30 * x ^ 2).
Proof.
  intros x. unfold poly.
  assert (P5 := derivable_pt_lim_pow x 5). assert (P4 := derivable_pt_lim_pow x 4). assert (P3 := derivable_pt_lim_pow x 3).
  pose proof (derivable_pt_lim_scal _ 6 _ _ P5) as D5. pose proof (derivable_pt_lim_scal _ 15 _ _ P4) as D4.
  pose proof (derivable_pt_lim_scal _ 10 _ _ P3) as D3.
  pose proof (derivable_pt_lim_plus _ _ _ _ _ (derivable_pt_lim_minus _ _ _ _ _ D5 D4) D3) as D. cbn [pred INR] in D.
  replace (30 * x ^ 4 - 60 * x ^ 3 + 30 * x ^ 2) with (6 * ((1 + 1 + 1 + 1 + 1) * x ^ 4) - 15 * ((1 + 1 + 1 + 1) * x ^ 3) + 10 * ((1 + 1 + 1) * x ^ 2)) by ring.
  exact D.
Qed.
Lemma dpoly_derive : forall x, derivable_pt_lim (fun x => 30 * x ^ 4 - 60 * x ^ 3 + 30 * x ^ 2) x (120 * x ^ 3 - 180 * x ^ 2 + 60 * x).
Proof.
  intros x.
  assert (P4 := derivable_pt_lim_pow x 4). assert (P3 := derivable_pt_lim_pow x 3). assert (P2 := derivable_pt_lim_pow x 2).
  pose proof (derivable_pt_lim_scal _ 30 _ _ P4) as D4. pose proof (derivable_pt_lim_scal _ 60 _ _ P3) as D3.
  pose proof (derivable_pt_lim_scal _ 30 _ _ P2) as D2.
  pose proof (derivable_pt_lim_plus _ _ _ _ _ (derivable_pt_lim_minus _ _ _ _ _ D4 D3) D2) as D. cbn [pred INR] in D.
  replace (120 * x ^ 3 - 180 * x ^ 2 + 60 * x) with (30 * ((1 + 1 + 1 + 1) * x ^ 3) - 60 * ((1 + 1 + 1) * x ^ 2) + 30 * ((1 + 1) * x ^ 1)) by ring.
  exact D.
Qed.
Lemma scaled_derive : forall f df d k, (forall x, derivable_pt_lim f x (df x)) -> d <> 0 ->
  forall t, derivable_pt_lim (fun t => f (t / d) * k) t (df (t / d) / d * k).
Proof.
  intros f df d k H Hd t.
  assert (E : derivable_pt_lim (fun t => t / d) t (1 / d)).
  { unfold Rdiv. pose proof (derivable_pt_lim_mult id (fun _ => / d) t 1 0 (derivable_pt_lim_id t) (derivable_pt_lim_const (/ d) t)) as D.
    unfold mult_fct, id in D. replace (1 * / d) with (1 * / d + t * 0) by ring. exact D. }
  pose proof (derivable_pt_lim_comp _ _ _ _ _ E (H (t / d))) as C.
  pose proof (derivable_pt_lim_mult _ (fun _ => k) t _ 0 C (derivable_pt_lim_const k t)) as M.
  unfold mult_fct, comp in M. replace (df (t / d) / d * k) with (df (t / d) * (1 / d) * k + f (t / d) * 0) by (unfold Rdiv; ring). exact M.
Qed.

Lemma poly_lipschitz : forall x y, 0 <= x <= y -> y <= 1 -> 0 <= poly y - poly x <= 15 / 8 * (y - x).
Proof.
  intros x y H Hy. destruct (Rle_lt_or_eq_dec x y (proj2 H)) as [Hn| ->]; [|lra].
  destruct (MVT_cor2 poly (fun c => 30 * c ^ 4 - 60 * c ^ 3 + 30 * c ^ 2) x y) as (c & E & Hc); [lra|intros; apply poly_derive|].
  rewrite E. replace (30 * c ^ 4 - 60 * c ^ 3 + 30 * c ^ 2) with (30 * (c * (1 - c)) ^ 2) by ring.
  assert (A : 0 <= c * (1 - c) <= 1 / 4) by (split; [apply Rmult_le_pos; lra|pose proof (Rle_0_sqr (c - 1 / 2)) as Q; unfold Rsqr in Q; lra]).
  assert (B : 0 <= (c * (1 - c)) ^ 2 <= 1 / 16) by (split; [apply pow2_ge_0|replace (1 / 16) with ((1 / 4) ^ 2) by field; apply pow_incr; lra]). split; [nra|]. apply Rmult_le_compat_r; lra.
Qed.

(** The height of sample [k]. *)
Lemma swing_height : forall c dT n s0 s1 k x, feet_ok c -> 0 < dT -> (k < n)%nat -> swing_inv c dT n s0 s1 k x ->
  let n1 := nround (INR n * f_apex c) in
  ((k < n1)%nat /\ p_p (s_z x) = f_height c * poly (INR k / (INR n * f_apex c)) /\ INR k <= INR n * f_apex c - / 2)
  \/ ((n1 <= k)%nat /\ p_p (s_z x) = f_height c * (1 - poly ((INR k - INR n1) / (INR n * (1 - f_apex c)))) /\ INR k - INR n1 <= INR n * (1 - f_apex c) - / 2).
Proof.
  intros c dT n s0 s1 k x [Ha _] Hd Hk (_ & _ & _ & Hz) n1. cbv zeta in Hz. fold n1 in Hz.
  assert (Hn0 : 0 < INR n) by (apply lt_0_INR; lia).
  assert (Hx : 0 <= INR n * f_apex c) by (apply Rmult_le_pos; lra).
  pose proof (nround_bounds _ Hx) as B. fold n1 in B.
  destruct Hz as [(K & E & _)|(K & E & _)]; [left|right]; split; auto.
  - destruct (up_times (f_apex c) n k dT Ha Hd K) as [U1 U2].
    destruct (min_jerk_ok 0 (f_height c) (INR k * dT) (INR n * dT * f_apex c) U2 U1) as (y & E1 & P & _). rewrite E in E1. injection E1 as <-.
    assert (INR k + 1 <= INR n1) by (rewrite <- S_INR; apply le_INR; lia). split; [|lra]. rewrite P.
    replace (INR k * dT / (INR n * dT * f_apex c)) with (INR k / (INR n * f_apex c)) by (field; lra). ring.
  - destruct (down_times (f_apex c) n k dT Ha Hd ltac:(fold n1; lia)) as [U1 U2]. fold n1 in U1.
    destruct (min_jerk_ok (f_height c) 0 (INR k * dT - INR n1 * dT) (INR n * dT * (1 - f_apex c)) U2 U1) as (y & E1 & P & _). rewrite E in E1. injection E1 as <-.
    assert (INR k + 1 <= INR n) by (rewrite <- S_INR; apply le_INR; lia). split; [|lra]. rewrite P.
    replace ((INR k * dT - INR n1 * dT) / (INR n * dT * (1 - f_apex c))) with ((INR k - INR n1) / (INR n * (1 - f_apex c))) by (field; lra). ring.
Qed.

Section Jump.
Variables (h M A D : R).
Hypotheses (Hh : 0 <= h) (HM : 0 < M) (HA : M <= A) (HD : M <= D).
Let K := 45 / 16 * h / M.
Lemma ramp : forall X x y, M <= X -> 0 <= x <= y -> y <= X -> y - x <= 3 / 2 -> 0 <= h * (poly (y / X) - poly (x / X)) <= K.
Proof.
  intros X x y HX H1 H2 H3.
  assert (B : 0 <= poly (y / X) - poly (x / X) <= 15 / 8 * (y / X - x / X)).
  { apply poly_lipschitz.
    - split; [apply div_nonneg; lra|]. unfold Rdiv. apply Rmult_le_compat_r; [apply Rlt_le, Rinv_0_lt_compat; lra|lra].
    - apply (Rmult_le_reg_r X); [lra|]. field_simplify; lra. }
  assert (C : y / X - x / X <= 3 / 2 / M).
  { replace (y / X - x / X) with ((y - x) * / X) by (unfold Rdiv; ring). unfold Rdiv.
    assert (/ X <= / M) by (apply Rinv_le_contravar; lra). assert (0 < / X) by (apply Rinv_0_lt_compat; lra).
    apply Rle_trans with (3 / 2 * / X); [apply Rmult_le_compat_r; lra|]. unfold Rdiv. apply Rmult_le_compat_l; lra. }
  split; [apply Rmult_le_pos; lra|].
  apply Rle_trans with (h * (15 / 8 * (3 / 2 / M))); [apply Rmult_le_compat_l; lra|]. unfold K. right. field. lra.
Qed.
Lemma big : M <= 1 / 2 -> h <= K.
Proof.
  intros H. unfold K. assert (2 <= / M). { replace 2 with (/ (1 / 2)) by lra. apply Rinv_le_contravar; lra. }
  unfold Rdiv. assert (h * 2 <= h * / M) by (apply Rmult_le_compat_l; lra). lra.
Qed.
End Jump.

(** Heights with the rest before and after the swing. *)
Definition heights (out : list sample) : list R := 0 :: map (fun x => p_p (s_z x)) out ++ [0].

Lemma swing_jumps : forall c dT n s0 s1 out, feet_ok c -> 0 <= f_height c -> 0 < dT -> (1 <= n)%nat ->
  length out = n -> (forall k x, nth_error out k = Some x -> swing_inv c dT n s0 s1 k x) ->
  forall k a b, nth_error (heights out) k = Some a -> nth_error (heights out) (S k) = Some b ->
  Rabs (b - a) <= 45 / 16 * f_height c / (INR n * Rmin (f_apex c) (1 - f_apex c)).
Proof.
  intros c dT n s0 s1 out Hok Hh Hd Hn Hl Hx k a b Ha Hb.
  set (h := f_height c) in *. set (M := INR n * Rmin (f_apex c) (1 - f_apex c)).
  set (A := INR n * f_apex c). set (D := INR n * (1 - f_apex c)). set (n1 := nround A).
  assert (Hap : 0 < f_apex c < 1) by (destruct Hok; auto).
  assert (HN : 1 <= INR n) by (change 1 with (INR 1); apply le_INR; auto).
  pose proof (Rmin_l (f_apex c) (1 - f_apex c)) as L1. pose proof (Rmin_r (f_apex c) (1 - f_apex c)) as L2.
  assert (L3 : 0 < Rmin (f_apex c) (1 - f_apex c)) by (apply Rmin_glb_lt; lra).
  assert (HM : 0 < M) by (unfold M; apply Rmult_lt_0_compat; lra).
  assert (HA : M <= A) by (unfold M, A; apply Rmult_le_compat_l; lra).
  assert (HD : M <= D) by (unfold M, D; apply Rmult_le_compat_l; lra).
  assert (HS : A + D = INR n) by (unfold A, D; ring).
  pose proof (nround_bounds A ltac:(lra)) as B. fold n1 in B.
  pose proof (apex_count (f_apex c) n Hap) as Hc. fold A in Hc. fold n1 in Hc.
  pose proof (ramp h M Hh HM) as RA. pose proof (big h M Hh HM) as BG.
  assert (HR : forall z, 0 <= z <= h -> M <= 1 / 2 -> z <= 45 / 16 * h / M) by (intros z Hz HMM; specialize (BG HMM); lra).
  (* the height of sample [j], also for the virtual samples at both ends *)
  assert (Z : forall j, (j < n)%nat -> exists z, nth_error (heights out) (S j) = Some z /\
     (((j < n1)%nat /\ z = h * poly (INR j / A) /\ INR j <= A - / 2)
      \/ ((n1 <= j)%nat /\ z = h * (1 - poly ((INR j - INR n1) / D)) /\ INR j - INR n1 <= D - / 2))).
  { intros j Hj. destruct (nth_error out j) as [x|] eqn:Ex; [|apply nth_error_None in Ex; lia].
    exists (p_p (s_z x)). split.
    - unfold heights. cbn [nth_error]. rewrite nth_error_app1 by (rewrite map_length; lia). apply (map_nth_error (fun x => p_p (s_z x))). exact Ex.
    - exact (swing_height c dT n s0 s1 j x Hok Hd Hj (Hx j x Ex)). }
  assert (L0 : nth_error (heights out) (S n) = Some 0).
  { unfold heights. cbn [nth_error]. rewrite nth_error_app2 by (rewrite map_length; lia). rewrite map_length, Hl, Nat.sub_diag. reflexivity. }
  assert (P0 : forall X, poly (0 / X) = 0) by (intros X; unfold Rdiv; rewrite Rmult_0_l; unfold poly; ring).
  assert (P1 : forall X, 0 < X -> poly (X / X) = 1) by (intros X HX; replace (X / X) with 1 by (field; lra); unfold poly; ring).
  assert (HK0 : 0 <= 45 / 16 * h / M) by (apply div_nonneg; lra).
  assert (Hlen : (S k < n + 2)%nat).
  { assert (S k < length (heights out))%nat by (apply nth_error_Some; congruence). unfold heights in H. cbn [length] in H.
    rewrite app_length, map_length in H. cbn [length] in H. lia. }
  destruct k as [|j].
  - (* rest to first sample *)
    unfold heights in Ha. cbn in Ha. injection Ha as <-.
    destruct (Z 0%nat ltac:(lia)) as (z & Ez & Cz). rewrite Hb in Ez. injection Ez as ->. cbn [INR] in Cz.
    destruct Cz as [(K1 & -> & _)|(K1 & -> & _)].
    + rewrite P0. replace (h * 0 - 0) with 0 by ring. rewrite Rabs_R0. auto.
    + assert (n1 = 0%nat) by lia. assert (I0 : INR n1 = 0) by (rewrite H; reflexivity). rewrite I0 in B |- *. replace ((0 - 0) / D) with (0 / D) by (f_equal; ring). rewrite P0. replace (h * (1 - 0) - 0) with h by ring.
      rewrite Rabs_right by lra. apply HR; lra.
  - destruct (Z j ltac:(lia)) as (z & Ez & Cz). rewrite Ha in Ez. injection Ez as ->.
    assert (Ij : 0 <= INR j) by apply pos_INR.
    assert (Pz : 0 <= z <= h).
    { destruct Cz as [(K1 & -> & K2)|(K1 & -> & K2)].
      - pose proof (poly_range _ (norm_range (INR j) A ltac:(lra) ltac:(lra))). split; nra.
      - assert (INR n1 <= INR j) by (apply le_INR; auto).
        pose proof (poly_range _ (norm_range (INR j - INR n1) D ltac:(lra) ltac:(lra))). split; nra. }
    destruct (Nat.eq_dec (S j) n) as [Ej|Ej].
    + (* last sample to rest *)
      rewrite Ej in Hb. rewrite Hb in L0. injection L0 as ->. replace (0 - z) with (- z) by ring. rewrite Rabs_Ropp, Rabs_right by lra.
      assert (EI : INR j = INR n - 1) by (rewrite <- Ej, S_INR; ring).
      destruct Cz as [(K1 & -> & K2)|(K1 & -> & K2)].
      * apply HR; auto. assert (n1 = n) by lia. subst n1. rewrite H in B. lra.
      * assert (INR n1 <= INR j) by (apply le_INR; auto).
        destruct (RA D (INR j - INR n1) D HD ltac:(lra) ltac:(lra) ltac:(lra)) as [_ R2]. rewrite P1 in R2 by lra. exact R2.
    + destruct (Z (S j) ltac:(lia)) as (z' & Ez & Cz'). rewrite Hb in Ez. injection Ez as ->. rewrite S_INR in Cz'.
      destruct Cz as [(K1 & E1 & K2)|(K1 & E1 & K2)], Cz' as [(K3 & E2 & K4)|(K3 & E2 & K4)]; try lia; subst z z'.
      * destruct (RA A (INR j) (INR j + 1) HA ltac:(lra) ltac:(lra) ltac:(lra)) as [R1 R2].
        replace (h * poly ((INR j + 1) / A) - h * poly (INR j / A)) with (h * (poly ((INR j + 1) / A) - poly (INR j / A))) by ring.
        rewrite Rabs_right by lra. exact R2.
      * assert (En : n1 = S j) by lia. assert (EI : INR n1 = INR j + 1) by (rewrite En, S_INR; ring).
        replace ((INR j + 1 - INR n1) / D) with (0 / D) by (rewrite EI; f_equal; ring). rewrite P0.
        destruct (RA A (INR j) A HA ltac:(lra) ltac:(lra) ltac:(lra)) as [R1 R2]. rewrite P1 in R1, R2 by lra.
        replace (h * (1 - 0) - h * poly (INR j / A)) with (h * (1 - poly (INR j / A))) by ring. rewrite Rabs_right by lra. exact R2.
      * assert (INR n1 <= INR j) by (apply le_INR; auto).
        destruct (RA D (INR j - INR n1) (INR j + 1 - INR n1) HD ltac:(lra) ltac:(lra) ltac:(lra)) as [R1 R2].
        replace (h * (1 - poly ((INR j + 1 - INR n1) / D)) - h * (1 - poly ((INR j - INR n1) / D)))
          with (- (h * (poly ((INR j + 1 - INR n1) / D) - poly ((INR j - INR n1) / D)))) by ring.
        rewrite Rabs_Ropp, Rabs_right by lra. exact R2.
Qed.

(** ** Runs *)
(** A step of 0.2 m with the right foot. *)
Definition stepL : footprint := MkFP [MkStep (V2 0 (1/10)) 0 0 "l"] "l".
Definition stepR : footprint := MkFP [MkStep (V2 0 (-1/10)) 0 0 "r"; MkStep (V2 (2/10) (-1/10)) 0 4 "r"] "r".
Definition stepSrt : list tstep :=
  [MkT true 0 (MkStep (V2 0 (1/10)) 0 0 "l"); MkT false 0 (MkStep (V2 0 (-1/10)) 0 0 "r"); MkT false 1 (MkStep (V2 (2/10) (-1/10)) 0 4 "r")].
Definition stepOrd : list tstep :=
  [MkT false 0 (MkStep (V2 0 (-1/10)) 0 0 "r"); MkT true 0 (MkStep (V2 0 (1/10)) 0 0 "l"); MkT false 1 (MkStep (V2 (2/10) (-1/10)) 0 4 "r")].
Lemma step_sort : sort_result (fp_steps stepL) (fp_steps stepR) stepSrt.
Proof.
  split; [apply Permutation_refl|].
  repeat (constructor; [|repeat constructor; unfold tle; simpl; lra]). constructor.
Qed.
Lemma step_order : order_steps stepSrt = Ok stepOrd.
Proof. unfold order_steps, stepSrt. cbn -[Reqb]. rewrite (reqb_t 0 0) by lra. reflexivity. Qed.

Lemma step_gen : forall pct sw, 0 <= pct * 4 / 1 -> INR sw - / 2 <= pct * 4 < INR sw + / 2 -> (sw <= 4)%nat -> 
  exists out, generate_phases (MkG pct 1 10 2 true (1/2) (1/2)) stepL stepR 0 1 stepSrt = Ok out
  /\ go_ord out = stepOrd
  /\ ph_shift (go_ph out) = [0%nat; sw; (sw + (4 - sw))%nat; (sw + (4 - sw) + 1)%nat]
  /\ ph_right (go_ph out) = (repeat SwitchOut sw ++ repeat Swing (4 - sw)) ++ [SwitchIn]
  /\ ph_left (go_ph out) = (repeat SwitchIn sw ++ repeat Stance (4 - sw)) ++ [SwitchOut].
Proof.
  intros pct sw H0 H1 H2. unfold generate_phases. cbn -[Rltb Rleb Rmax order_steps create_phases Reqb].
  rewrite (rleb_f 1 0) by lra. rewrite (rltb_f 0 (Rmax 0 0)) by (unfold Rmax; destruct (Rle_dec 0 0); lra).
  fold stepSrt. rewrite step_order. cbn [rbind]. unfold create_phases, stepOrd. cbn [last hd t_step st_time].
  cbn [g_switchPct g_endSwitch g_maxStep g_nomStep g_pause g_mrBegin g_mrEnd].
  match goal with |- context [size_ceil ?x] => destruct (size_ceil_nonneg x) as (n & ->); [lra|] end. cbn [rbind cp_loop].
  unfold cp_step. cbn [c_prev t_step st_time t_left t_idx c_li c_ri c_cur c_lp c_rp c_shift c_merge c_ub Nat.eqb].
  rewrite (rltb_f (4 - 0) 0) by lra.
  unfold switch_time. cbn [g_switchPct g_endSwitch g_maxStep g_nomStep g_pause].
  rewrite (reqb_t 0 0) by lra. rewrite (rgtb_f (4 - 0) 10) by lra. cbn [negb andb].
  rewrite (size_round_imp ((4 - 0) / 1) 4) by (simpl; lra). cbn [rbind].
  rewrite (size_round_imp (pct * (4 - 0) / 1) sw) by lra. cbn [rbind].
  rewrite sub_size_le by lia. cbn [rbind]. cbn -[size_round].
  rewrite (size_round_imp (1 / 1) 1) by (simpl; lra). cbn [rbind].
  rewrite sub_size_le by lia. cbn [rbind]. eexists; split; [reflexivity|]. cbn [go_ord go_ph ph_shift ph_right ph_left repeat app]. auto.
Qed.

(** Default settings: every phase has samples. *)
Lemma step_run : exists out, generate_phases gset_new stepL stepR 0 1 stepSrt = Ok out
  /\ go_ord out = stepOrd /\ ph_shift (go_ph out) = [0%nat; 2%nat; 4%nat; 5%nat]
  /\ ph_right (go_ph out) = [SwitchOut; SwitchOut; Swing; Swing; SwitchIn]
  /\ ph_left (go_ph out) = [SwitchIn; SwitchIn; Stance; Stance; SwitchOut].
Proof. apply (step_gen (1/2) 2); cbn; try lra; lia. Qed.
Lemma step_no_empty : forall ph, ph_shift ph = [0%nat; 2%nat; 4%nat; 5%nat] -> no_empty_phase ph.
Proof.
  intros ph E i a b Ha Hb. rewrite E in *. destruct i as [|[|[|i]]]; cbn in *; try (injection Ha as <-; injection Hb as <-; lia).
  destruct i; discriminate.
Qed.

(** Short switch phases: with a ratio of 1/9 the switch rounds to no sample. *)
Lemma ratio_settings : fold_left gset_run [GoSwitch (1/9)] gset_new = MkG (1/9 / (1 + 1/9)) 1 10 2 true (1/2) (1/2).
Proof. cbn. unfold set_switchRatio. rewrite rleb_f by lra. reflexivity. Qed.
Lemma empty_run : exists out, generate_phases (MkG (1/9 / (1 + 1/9)) 1 10 2 true (1/2) (1/2)) stepL stepR 0 1 stepSrt = Ok out
  /\ go_ord out = stepOrd /\ ph_shift (go_ph out) = [0%nat; 0%nat; 4%nat; 5%nat]
  /\ ph_right (go_ph out) = [Swing; Swing; Swing; Swing; SwitchIn]
  /\ ph_left (go_ph out) = [Stance; Stance; Stance; Stance; SwitchOut].
Proof. apply (step_gen (1/9 / (1 + 1/9)) 0); cbn; try lra; lia. Qed.
