(** The steps of a whole plan, and functions that meet the hypotheses. *)
From Coq Require Import Reals ZArith Lra Lia List Bool Psatz.
From Flocq Require Import Core IEEE754.BinarySingleNaN.
From Verif Require Import Prelude FootPrint Rounding RoundedGen RoundedGenSpec RoundedGenProofs2 RoundedGenProofs3 RoundedGenProofs4
  EvalTac Doubles DoublesSpec DoublesProofs DoublesProofs2 CtrlDoubles CtrlDoublesSpec CtrlDoublesProofs TrackDoublesProofs TimedPlan TimedPlanProofs2 StepDoubles StepDoublesSpec
  StepDoublesProofs StepDoublesProofs2 StepDoublesProofs3.
Import ListNotations.
Open Scope R_scope.

Lemma chained_mono : forall X (Q Q' : bool -> list X -> list X -> X -> X -> Prop),
  (forall (sw : bool) l r prev x, last_opt (if sw then r else l) = Some prev -> Q sw l r prev x -> Q' sw l r prev x) ->
  forall new (sw : bool) l r prev l' r', last_opt (if sw then r else l) = Some prev -> chained Q sw l r prev new l' r' -> chained Q' sw l r prev new l' r'.
Proof.
  intros X Q Q' H new. induction new as [|x new IH]; intros sw l r prev l' r' L K; [exact K|]. cbn [chained] in *. destruct K as (K1 & K2). split; [apply H; auto|]. apply IH; auto.
  destruct sw; cbn [negb]; apply last_opt_app.
Qed.

(** ** The square *)
Lemma fmul_square : close_square (fun x => fmul x x).
Proof.
  intros x F. destruct (fmul_parts _ _ F) as (Fx & _). split; auto. rewrite (fmul_fin x x F).
  assert (P : 0 <= f2r x * f2r x) by apply Rle_0_sqr. pose proof (b64_near (f2r x * f2r x) (f2r x * f2r x)) as N. rewrite Rabs_pos_eq in N by auto. specialize (N (Rle_refl _)).
  destruct u64_bounds as ((U0 & U1) & EU). assert (E : bpow radix2 (-52) = 2 * u64) by (rewrite EU; change (-52)%Z with (1 + -53)%Z; rewrite bpow_plus; reflexivity).
  assert (E2 : bpow radix2 (-1075) = eta64) by (unfold eta64; change (-1075)%Z with (-1 + -1074)%Z; rewrite bpow_plus; reflexivity). rewrite E, E2.
  assert (0 <= u64 * (f2r x * f2r x)) by (apply Rmult_le_pos; lra). lra.
Qed.
(** ** Cosine and sine *)
Definition near_unit (v : R) : f64 := fmake (ZnearestE (v * bpow radix2 60)) (-60).
Definition near_cos (x : f64) : f64 := match x with B754_zero _ => f1 | B754_finite _ _ _ _ => near_unit (cos (f2r x)) | _ => B754_nan end.
Definition near_sin (x : f64) : f64 := match x with B754_zero _ => fzero | B754_finite _ _ _ _ => near_unit (sin (f2r x)) | _ => B754_nan end.
Lemma near_unit_ok : forall v, Rabs v <= 1 -> fin (near_unit v) = true /\ Rabs (f2r (near_unit v) - v) <= bpow radix2 (-52).
Proof.
  intros v H. unfold near_unit. set (b := bpow radix2 60). set (z := ZnearestE (v * b)). assert (B : 0 < b) by apply bpow_gt_0.
  assert (Z : Rabs (v * b - IZR z) <= / 2) by apply Znearest_half. assert (E : F2R (Float radix2 z (-60)) = IZR z * / b) by (unfold F2R; cbn [Fnum Fexp]; unfold b; rewrite <- bpow_opp; reflexivity).
  set (w := IZR z * / b) in *. assert (b1 : / b = bpow radix2 (-60)) by (unfold b; rewrite <- bpow_opp; reflexivity).
  assert (W : Rabs (w - v) <= bpow radix2 (-60)).
  { replace (w - v) with (- (v * b - IZR z) * / b) by (unfold w; field; lra). rewrite Rabs_mult, Rabs_Ropp, b1, (Rabs_pos_eq (bpow radix2 (-60))) by apply bpow_ge_0.
    assert (Rabs (v * b - IZR z) * bpow radix2 (-60) <= 1 * bpow radix2 (-60)) by (apply Rmult_le_compat_r; [apply bpow_ge_0|lra]). lra. }
  assert (Q : bpow radix2 (-60) <= / 64 * bpow radix2 (-53)) by (change (-60)%Z with (-7 + -53)%Z; rewrite bpow_plus; change (bpow radix2 (-7)) with (/ 128); pose proof (bpow_ge_0 radix2 (-53)); lra).
  destruct u64_bounds as ((U0 & U1) & EU). rewrite <- EU in Q. assert (A2 : Rabs w <= 1 + / 64 * u64) by (apply Rabs_le_inv in W; apply Rabs_le_inv in H; apply Rabs_le; lra).
  assert (T : 2 <= top). { pose proof pow_top as P. pose proof (bpow_le radix2 1 1023 ltac:(lia)) as P2. change (bpow radix2 1) with 2 in P2. lra. }
  destruct (fmake_ok z (-60)) as (F & V); [rewrite E; lra|]. split; auto. rewrite V, E. pose proof (b64_near w _ A2) as N.
  assert (E3 : eta64 <= / 64 * u64). { unfold eta64. rewrite EU. replace (/ 64) with (bpow radix2 (-6)) by reflexivity. rewrite <- bpow_plus. pose proof (bpow_le radix2 (-1074) (-6 + -53) ltac:(lia)). pose proof (bpow_ge_0 radix2 (-1074)). lra. }
  assert (E4 : bpow radix2 (-52) = 2 * u64) by (rewrite EU; change (-52)%Z with (1 + -53)%Z; rewrite bpow_plus; reflexivity). rewrite E4.
  assert (u64 * (1 + / 64 * u64) <= u64 + / 64 * u64) by (assert (u64 * u64 <= u64 * 1) by (apply Rmult_le_compat_l; lra); lra).
  apply Rabs_le_inv in N. apply Rabs_le_inv in W. apply Rabs_le. lra.
Qed.
Lemma near_trig : close_trig near_cos near_sin.
Proof.
  intros x. assert (B : 0 <= bpow radix2 (-52)) by apply bpow_ge_0. destruct x as [z|z| |z m e H]; split; intros F; try discriminate F.
  - cbn [near_cos near_sin]. change (f2r (B754_zero z)) with 0. rewrite cos_0, sin_0. destruct f1_ok as (F1 & V1). rewrite V1. change (f2r fzero) with 0. rewrite !Rminus_0_r, Rminus_diag_eq, Rabs_R0 by reflexivity. auto.
  - split; reflexivity.
  - split; reflexivity.
  - cbn [near_cos near_sin]. destruct (near_unit_ok (cos (f2r (B754_finite z m e H))) (cos_abs _)). destruct (near_unit_ok (sin (f2r (B754_finite z m e H))) (sin_abs _)). auto.
Qed.

(** ** Steps next to the other foot *)
Section Beside.
Variables (sq c s : f64 -> f64) (at2 : f64 -> f64 -> f64).
Hypothesis trig : close_trig c s.
Variable S : field -> f64.
Notation M := (ieee_maths sq c s at2).
(** The width between the feet. *)
Lemma half_width : forall w, fin (fsub (fdiv w (a_q ieee 2 1)) (fdiv (fopp w) (a_q ieee 2 1))) = true ->
  Rabs (f2r (fsub (fdiv w (a_q ieee 2 1)) (fdiv (fopp w) (a_q ieee 2 1))) - f2r w) <= 3 * u64 * Rabs (f2r w) + 4 * eta64.
Proof.
  intros w F. set (a := fdiv w (a_q ieee 2 1)) in *. set (b := fdiv (fopp w) (a_q ieee 2 1)) in *. destruct (fsub_parts _ _ F) as (Fa & Fb).
  assert (E2 : f2r (a_q ieee 2 1) = 2). { destruct (q_ok 2 1) as (_ & E); [lia|lia|]. rewrite E. replace (2 / 1) with (IZR 2) by lra. apply b64_fix. apply is_b64_int. lia. }
  assert (Va : f2r a = b64 (f2r w / 2)) by (unfold a; rewrite fdiv_fin; rewrite ?E2; auto; lra).
  assert (Vb : f2r b = b64 (- f2r w / 2)) by (unfold b; rewrite fdiv_fin; rewrite ?E2, ?f2r_opp; auto; lra).
  set (v := f2r w) in *. destruct u64_bounds as ((U0 & U1) & EU). pose proof eta64_pos as n0.
  assert (H : Rabs (v / 2) <= Rabs v / 2) by (unfold Rdiv; rewrite Rabs_mult, (Rabs_pos_eq (/ 2)); lra).
  assert (H' : Rabs (- v / 2) <= Rabs v / 2) by (replace (- v / 2) with (- (v / 2)) by lra; rewrite Rabs_Ropp; auto).
  pose proof (b64_near _ _ H) as N1. pose proof (b64_near _ _ H') as N2. rewrite <- Va in N1. rewrite <- Vb in N2.
  destruct (sub_exact _ _ F) as (d & D & V). rewrite V. pose proof (Rabs_pos v) as P. set (k := Rabs v) in *.
  assert (K : Rabs (f2r a - f2r b - v) <= u64 * k + 2 * eta64) by (apply Rabs_le_inv in N1; apply Rabs_le_inv in N2; apply Rabs_le; lra).
  assert (K2 : Rabs (f2r a - f2r b) <= 2 * k + 2 * eta64).
  { replace (f2r a - f2r b) with ((f2r a - f2r b - v) + v) by ring. eapply Rle_trans; [apply Rabs_triang|]. fold k. assert (u64 * k <= 1 * k) by (apply Rmult_le_compat_r; lra). lra. }
  replace ((f2r a - f2r b) * (1 + d) - v) with ((f2r a - f2r b - v) + (f2r a - f2r b) * d) by ring. eapply Rle_trans; [apply Rabs_triang|]. rewrite (Rabs_mult (f2r a - f2r b)).
  assert (Rabs (f2r a - f2r b) * Rabs d <= (2 * k + 2 * eta64) * u64) by (apply Rmult_le_compat; auto; apply Rabs_pos).
  assert (eta64 * u64 <= eta64 * 1) by (apply Rmult_le_compat_l; lra). lra.
Qed.
Lemma shift_near : forall x q W w T, Rabs T <= 1 -> Rabs (W - w) <= 3 * u64 * Rabs w + 4 * eta64 -> Rabs (q - T * W) <= 11 / 2 * u64 * Rabs W + 4 * eta64 ->
  Rabs (b64 (x + q) - (x + T * w)) <= 16 * u64 * Rabs w + u64 * Rabs x + 24 * eta64.
Proof.
  intros x q W w T HT HW Hq. destruct u64_bounds as ((U0 & U1) & EU). pose proof eta64_pos as n0. pose proof (Rabs_pos w) as P. pose proof (Rabs_pos W) as PW. set (k := Rabs w) in *.
  assert (UK : u64 * k <= / 1024 * k) by (apply Rmult_le_compat_r; lra).
  assert (K : Rabs W <= 9 / 8 * k + 4 * eta64) by (replace W with ((W - w) + w) by ring; eapply Rle_trans; [apply Rabs_triang|]; fold k; lra).
  assert (UW : u64 * Rabs W <= 9 / 8 * (u64 * k) + 4 * eta64). { assert (u64 * Rabs W <= u64 * (9 / 8 * k + 4 * eta64)) by (apply Rmult_le_compat_l; lra). assert (u64 * eta64 <= 1 * eta64) by (apply Rmult_le_compat_r; lra). lra. }
  assert (UE : u64 * eta64 <= / 1024 * eta64) by (apply Rmult_le_compat_r; lra).
  assert (UW2 : u64 * Rabs W <= 9 / 8 * (u64 * k) + / 64 * eta64). { assert (u64 * Rabs W <= u64 * (9 / 8 * k + 4 * eta64)) by (apply Rmult_le_compat_l; lra). lra. }
  assert (TW : Rabs (T * W) <= Rabs W) by (rewrite Rabs_mult; assert (Rabs T * Rabs W <= 1 * Rabs W) by (apply Rmult_le_compat_r; lra); lra).
  assert (Q : Rabs q <= 3 / 2 * k + 9 * eta64). { replace q with ((q - T * W) + T * W) by ring. eapply Rle_trans; [apply Rabs_triang|]. lra. }
  assert (XQ : Rabs (x + q) <= Rabs x + (3 / 2 * k + 9 * eta64)) by (eapply Rle_trans; [apply Rabs_triang|lra]).
  pose proof (b64_near _ _ XQ) as N. replace (b64 (x + q) - (x + T * w)) with ((b64 (x + q) - (x + q)) + ((q - T * W) + T * (W - w))) by ring.
  assert (TD : Rabs (T * (W - w)) <= Rabs (W - w)) by (rewrite Rabs_mult; assert (Rabs T * Rabs (W - w) <= 1 * Rabs (W - w)) by (apply Rmult_le_compat_r; [apply Rabs_pos|lra]); lra).
  eapply Rle_trans; [apply Rabs_triang|]. assert (Rabs (q - T * W + T * (W - w)) <= Rabs (q - T * W) + Rabs (T * (W - w))) by apply Rabs_triang.
  replace (u64 * (Rabs x + (3 / 2 * k + 9 * eta64))) with (u64 * Rabs x + 3 / 2 * (u64 * k) + 9 * (u64 * eta64)) in N by ring. assert (0 <= u64 * k) by (apply Rmult_le_pos; lra). lra.
Qed.
Lemma next_ok : forall sw prev, next_to S sw prev (g_next ieee M S sw prev).
Proof.
  intros sw prev. unfold next_to, beside. set (off := foot_yaw S (negb sw)). set (w := S q_nomWidth). set (th := fsub (d_th prev) off). cbv zeta.
  set (W := if sw then fsub (fdiv w (a_q ieee 2 1)) (fdiv (fopp w) (a_q ieee 2 1)) else fsub (fdiv (fopp w) (a_q ieee 2 1)) (fdiv w (a_q ieee 2 1))).
  assert (E : g_next ieee M S sw prev = MkDP (fadd (d_x prev) (fadd (fmul (c th) (fsub fzero fzero)) (fmul (fopp (s th)) W))) (fadd (d_y prev) (fadd (fmul (s th) (fsub fzero fzero)) (fmul (c th) W))) (fadd th (foot_yaw S sw))).
  { rewrite <- c0_zero. unfold W. destruct sw; reflexivity. }
  rewrite E. cbn [d_x d_y d_th]. split; [reflexivity|]. intros Fx Fy. destruct (fadd_parts _ _ Fx) as (Px & Qx). destruct (fadd_parts _ _ Fy) as (Py & Qy).
  destruct (fadd_parts _ _ Qx) as (F1 & F2). destruct (fmul_parts _ _ F1) as (Fc & _). destruct (fmul_parts _ _ F2) as (_ & FW). destruct (trig_ok _ _ trig th (or_introl Fc)) as (Ft & Tc & Ts & Tn).
  set (k := if sw then f2r w else - f2r w). assert (AK : Rabs k = Rabs (f2r w)) by (unfold k; destruct sw; rewrite ?Rabs_Ropp; reflexivity).
  assert (HW : Rabs (f2r W - k) <= 3 * u64 * Rabs (f2r w) + 4 * eta64).
  { unfold W, k in *. destruct sw; [apply half_width; auto|]. pose proof (half_width (fopp w)) as K. assert (I : fopp (fopp w) = w) by apply Bopp_involutive. rewrite I, f2r_opp, Rabs_Ropp in K. apply K. exact FW. }
  assert (Z : f2r (fsub fzero fzero) = 0) by (vm_compute; reflexivity).
  assert (Z2 : f2r (fsub fzero fzero) = 0 * (1 + 0)) by (rewrite Z; ring). assert (W2 : f2r W = f2r W * (1 + 0)) by ring.
  destruct u64_bounds as ((U0 & U1) & EU). assert (D0 : Rabs 0 <= u64) by (rewrite Rabs_R0; lra).
  assert (SA : Rabs (- sin (f2r th)) <= 1) by (rewrite Rabs_Ropp; apply sin_abs).
  pose proof (comb_near _ _ _ _ _ _ _ _ _ _ Qx Tc (cos_abs (f2r th)) Tn SA D0 D0 Z2 W2) as Cx. pose proof (comb_near _ _ _ _ _ _ _ _ _ _ Qy Ts (sin_abs (f2r th)) Tc (cos_abs (f2r th)) D0 D0 Z2 W2) as Cy.
  rewrite Rabs_R0, Rplus_0_l, Rmult_0_r, Rplus_0_l in Cx, Cy. rewrite (fadd_fin _ _ Px Qx Fx), (fadd_fin _ _ Py Qy Fy). rewrite <- AK in *.
  pose proof (shift_near (f2r (d_x prev)) _ _ _ _ SA HW Cx) as Rx. pose proof (shift_near (f2r (d_y prev)) _ _ _ _ (cos_abs (f2r th)) HW Cy) as Ry.
  assert (E1 : bpow radix2 (-49) = 16 * u64) by (rewrite EU; change (-49)%Z with (4 + -53)%Z; rewrite bpow_plus; reflexivity).
  assert (E2 : bpow radix2 (-52) = 2 * u64) by (rewrite EU; change (-52)%Z with (1 + -53)%Z; rewrite bpow_plus; reflexivity).
  assert (E3 : bpow radix2 (-1070) = 32 * eta64) by (unfold eta64; change (-1070)%Z with (4 + -1074)%Z; rewrite bpow_plus; change (bpow radix2 4) with 16; lra).
  rewrite E1, E2, E3. pose proof eta64_pos as n0. assert (0 <= u64 * Rabs (f2r (d_x prev))) by (apply Rmult_le_pos; [lra|apply Rabs_pos]). assert (0 <= u64 * Rabs (f2r (d_y prev))) by (apply Rmult_le_pos; [lra|apply Rabs_pos]).
  replace (f2r (d_x prev) - sin (f2r th) * k) with (f2r (d_x prev) + - sin (f2r th) * k) by ring. split; lra.
Qed.
End Beside.

(** ** Plans *)
Section WholePlan.
Variables (sq c s : f64 -> f64) (at2 : f64 -> f64 -> f64).
Hypothesis trig : close_trig c s.
Hypothesis squ : close_square sq.
Variable S : field -> f64.
Hypothesis Fl : fin (S q_maxLen) = true.
Hypothesis Fw : fin (S q_minWidth) = true.
Hypothesis Fa : fin (S q_maxAngle) = true.
Notation M := (ieee_maths sq c s at2).
Variables (k : tcfg f64) (back : bool) (free : option (dell f64)) (sol : f64 -> dpose f64) (first : dpose f64) (checks integ point : bool) (lateral : option bool).
Notation o := (step_geo ieee M S (prob_of S back free) sol first (c_end k) checks integ point lateral).
Notation bk := (if back then Some (S q_maxBack) else None).

Lemma glast_eq : forall (sw : bool) (l r : list (dpose f64 * f64)) prev, last_opt (if sw then r else l) = Some prev -> g_last (if sw then r else l) = Some (fst prev).
Proof. intros sw l r prev H. unfold g_last. destruct sw; rewrite H; reflexivity. Qed.
Lemma cand_limited : forall (sw : bool) l r prev t dt cost, last_opt (if sw then r else l) = Some prev -> o_cand o sw l r prev t dt = Some (Some cost) ->
  limited S bk sw (fst prev) (sol t) (g_pose ieee M S sw (sol t)) /\ k_inside ieee M free (spot (g_pose ieee M S sw (sol t))) = true.
Proof.
  intros sw l r prev t dt cost H K. cbn [step_geo o_cand] in K. rewrite (glast_eq _ _ _ _ H) in K. cbv zeta in K.
  destruct (k_ok ieee M _ _) eqn:O in K; [|discriminate K].
  exact (accepted_within sq c s at2 trig squ S (S q_maxLen) (S q_minWidth) (S q_maxAngle) (prob_of S back free) eq_refl eq_refl eq_refl Fl Fw Fa sw false (fst prev) (sol t) dt O).
Qed.
Lemma term_limited : forall (sw : bool) l r prev dt, last_opt (if sw then r else l) = Some prev -> o_term o sw l r prev dt = Some true ->
  limited S bk sw (fst prev) (sol (c_end k)) (g_pose ieee M S sw (sol (c_end k))) /\ k_inside ieee M free (spot (g_pose ieee M S sw (sol (c_end k)))) = true.
Proof.
  intros sw l r prev dt H K. cbn [step_geo o_term] in K. rewrite (glast_eq _ _ _ _ H) in K. cbv zeta in K. injection K as K. apply andb_prop in K. destruct K as (K & _). apply andb_prop in K. destruct K as (O & _).
  exact (accepted_within sq c s at2 trig squ S (S q_maxLen) (S q_minWidth) (S q_maxAngle) (prob_of S back free) eq_refl eq_refl eq_refl Fl Fw Fa sw true (fst prev) (sol (c_end k)) dt O).
Qed.
Theorem plan_limited : forall n left right left' right' sw' sl, t_plan ieee k o n left right = TDone left' right' sw' sl ->
  exists l r (sw : bool) prev a b l1 r1 l2 r2,
  begun (c_init k) (fun b => g_pose ieee M S b first) left right l r
  /\ last_opt (if sw then r else l) = Some prev
  /\ chained (fun sw l r prev x => searched S bk k sol sw prev x) sw l r prev a l1 r1
  /\ settled S bk k sol sw' l1 r1 (last a prev) b l2 r2 /\ last_opt (if sw' then r1 else l1) = Some (last a prev)
  /\ (a ++ b <> [] -> left' = l2 /\ right' = r2).
Proof.
  intros n left right left' right' sw' sl H. destruct (plan_chained _ _ _ _ _ _ _ _ _ _ H) as (l & r & sw & prev & a & b & l1 & r1 & l2 & r2 & H1 & H2 & H3 & H4 & H5 & H6 & H7).
  exists l, r, sw, prev, a, b, l1, r1, l2, r2. subst sw'. split; [exact H1|]. split; [exact H2|]. split; [|split; [|split; [exact H5|exact H7]]].
  - revert H3. apply chained_mono; auto. intros sw0 l0 r0 p x L [(dt & pause & cost & K1 & K2 & _ & _ & _ & K3)|(K1 & _ & K3)]; (split; [exact K3|]).
    + left. cbn [step_geo o_pose] in K2. injection K2 as K2. rewrite <- K2. apply (cand_limited sw0 l0 r0 p (snd x) dt cost L K1).
    + right. cbn [step_geo o_par] in K1. rewrite (glast_eq _ _ _ _ L) in K1. injection K1 as K1. rewrite <- K1. apply next_ok; auto.
  - unfold terminated in H4. unfold settled. destruct b as [|x [|y [|z b]]]; auto.
    + tauto.
    + destruct H4 as (K1 & _ & K3). split; auto. cbn [step_geo o_par] in K1. rewrite (glast_eq _ _ _ _ H5) in K1. injection K1 as K1. rewrite <- K1. apply next_ok; auto.
    + destruct H4 as (K1 & K2 & K3). cbv zeta in K3. destruct K3 as (K3 & K4). cbn [step_geo o_pose] in K2. injection K2 as K2. split.
      * rewrite <- K2. apply (term_limited _ _ _ _ _ H5 K1).
      * match goal with |- if ?z then _ else _ => destruct z end; exact K4.
Qed.
End WholePlan.
