(** Desired points stay of a usual size, and the exact model. *)
From Coq Require Import Reals ZArith List Bool Lia Lra.
From Flocq Require Import Core IEEE754.BinarySingleNaN.
From Verif Require Import Prelude UnicycleFoot Ellipse Controllers PersonFollowing Rounding RoundedGen RoundedGenSpec RoundedGenProofs2 RoundedGenProofs3 Doubles DoublesSpec DoublesProofs DoublesProofs2 DoublesProofs3
  CtrlDoubles CtrlDoublesSpec CtrlDoublesProofs NavDoublesSpec StepDoublesSpec StepDoublesProofs EllDoublesProofs UniDoubles UniDoublesSpec UniDoublesProofs UniDoublesProofs2
  TrackDoubles TrackDoublesSpec TrackDoublesProofs Properties_TrackDoubles PersonDoubles PersonDoublesSpec PersonDoublesProofs.
Import ListNotations.
Open Scope R_scope.

Lemma crude : forall x Z, Rabs x <= Z -> bpow radix2 (-900) <= Z -> Rabs (b64 x) <= 9 / 8 * Z.
Proof.
  intros x Z H L. pose proof (b64_near _ _ H) as N. pose proof (eta_below _ L). pose proof (bpow_gt_0 radix2 (-900)). destruct u64_bounds as ((U0 & U1) & _).
  assert (u64 * Z <= / 9007199254740992 * Z) by (apply Rmult_le_compat_r; lra). replace (b64 x) with ((b64 x - x) + x) by ring. pose proof (Rabs_triang (b64 x - x) x). lra.
Qed.
Lemma prod_held : forall P Q x y, held P x -> held Q y -> bpow radix2 (-900) <= P * Q <= bpow radix2 900 -> held (9 / 8 * (P * Q)) (fmul x y).
Proof.
  intros P Q x y (Fx & Bx) (Fy & By) (L1 & L2). pose proof (Rabs_pos (f2r x)). pose proof (Rabs_pos (f2r y)). assert (Z : Rabs (f2r x * f2r y) <= P * Q) by (rewrite Rabs_mult; apply Rmult_le_compat; auto).
  destruct (fmul_ok x y Fx Fy) as (F & E). { apply big_fin. pose proof (bpow_le radix2 900 1000 ltac:(lia)). lra. } split; auto. rewrite E. apply crude; auto.
Qed.
Lemma sum_held : forall P Q x y, held P x -> held Q y -> bpow radix2 (-900) <= P + Q <= bpow radix2 900 -> held (9 / 8 * (P + Q)) (fadd x y).
Proof.
  intros P Q x y (Fx & Bx) (Fy & By) (L1 & L2). assert (Z : Rabs (f2r x + f2r y) <= P + Q) by (pose proof (Rabs_triang (f2r x) (f2r y)); lra).
  destruct (fadd_ok x y Fx Fy) as (F & E). { apply big_fin. pose proof (bpow_le radix2 900 1000 ltac:(lia)). lra. } split; auto. rewrite E. apply crude; auto.
Qed.
Lemma held_weak : forall P Q x, P <= Q -> held P x -> held Q x.
Proof. intros P Q x H (F & B). split; auto. lra. Qed.
Lemma mix_held : forall B b i o, bpow radix2 (-899) <= B <= bpow radix2 800 -> fin b = true -> 0 <= f2r b <= 1 -> held B i -> held B o -> held (3 * B) (p_mix ieee b i o).
Proof.
  intros B b i o (B1 & B2) Fb Rb Hi Ho. unfold p_mix. cbn [a_add a_mul a_sub ieee]. rewrite c1_one. destruct f1_ok as (F1 & V1). pose proof (bpow_gt_0 radix2 (-899)). pose proof (bpow_le radix2 (-900) (-899) ltac:(lia)).
  pose proof (bpow_le radix2 802 900 ltac:(lia)). pose proof (four_pow 800). change (800 + 2)%Z with 802%Z in *. pose proof (bpow_le radix2 (-900) 0 ltac:(lia)). change (bpow radix2 0) with 1 in *.
  assert (Hb : held 1 b) by (split; auto; rewrite Rabs_pos_eq; lra).
  assert (Hc : held (9 / 8) (fsub f1 b)). { assert (Z : Rabs (f2r f1 - f2r b) <= 1) by (rewrite V1, Rabs_pos_eq; lra). destruct (fsub_ok f1 b F1 Fb) as (F & E). { apply big_fin. pose proof (bpow_le radix2 0 1000 ltac:(lia)). change (bpow radix2 0) with 1 in *. lra. } split; auto. rewrite E. replace (9 / 8) with (9 / 8 * 1) by ring. apply crude; auto. }
  assert (P1 := prod_held _ _ _ _ Hb Hi ltac:(lra)). assert (P2 := prod_held _ _ _ _ Hc Ho ltac:(lra)). assert (P3 := sum_held _ _ _ _ P1 P2 ltac:(lra)). eapply held_weak; [|exact P3]. lra.
Qed.

(** Points of the stored trajectory of size [Y] give desired points of size [2 Y]. *)
Lemma close_held : forall Y t p n a b x, bpow radix2 (-900) <= Y -> 0 <= f2r p <= f2r t -> f2r t < f2r n -> held Y a -> held Y b -> close64 (4 * (INR 0 + 1)) x (line64 p n t a b) a b -> held (2 * Y) x.
Proof.
  intros Y t p n a b x HY (T0 & T1) T2 (Fa & Ba) (Fb & Bb) (Fx & Hx). split; auto. set (r := (f2r t - f2r p) / (f2r n - f2r p)). assert (D : 0 < f2r n - f2r p) by lra.
  assert (R0 : 0 <= r) by (apply Rmult_le_pos; [lra|]; apply Rlt_le, Rinv_0_lt_compat; auto). assert (R1 : r <= 1) by (apply Rmult_le_reg_r with (f2r n - f2r p); auto; unfold r, Rdiv; rewrite Rmult_assoc, Rinv_l by lra; lra).
  assert (L : Rabs (line64 p n t a b) <= Y). { unfold line64. fold r. replace (f2r a + r * (f2r b - f2r a)) with ((1 - r) * f2r a + r * f2r b) by ring. pose proof (Rabs_triang ((1 - r) * f2r a) (r * f2r b)) as Z. rewrite !Rabs_mult, (Rabs_pos_eq (1 - r)), (Rabs_pos_eq r) in Z by lra.
    assert ((1 - r) * Rabs (f2r a) <= (1 - r) * Y) by (apply Rmult_le_compat_l; lra). assert (r * Rabs (f2r b) <= r * Y) by (apply Rmult_le_compat_l; lra). lra. }
  cbn [INR] in Hx. assert (K1 : bpow radix2 (-49) <= / 1024) by (change (/ 1024) with (bpow radix2 (-10)); apply bpow_le; lia). assert (K2 : bpow radix2 (-1070) <= / 1024 * Y). { apply Rle_trans with (/ 1024 * bpow radix2 (-900)); [|apply Rmult_le_compat_l; lra]. change (/ 1024) with (bpow radix2 (-10)). rewrite <- bpow_plus. apply bpow_le. lia. }
  pose proof (Rabs_pos (f2r a)). pose proof (Rabs_pos (f2r b)). assert (bpow radix2 (-49) * (Rabs (f2r a) + Rabs (f2r b)) <= / 1024 * (2 * Y)) by (apply Rmult_le_compat; try lra; apply bpow_ge_0).
  replace (f2r x) with ((f2r x - line64 p n t a b) + line64 p n t a b) by ring. pose proof (Rabs_triang (f2r x - line64 p n t a b) (line64 p n t a b)). pose proof (bpow_gt_0 radix2 (-900)). lra.
Qed.
Lemma held_sized : forall Y x, Y <= bpow radix2 900 -> held Y x -> sized x.
Proof. intros Y x H (F & B). split; auto. pose proof (bpow_le radix2 900 1000 ltac:(lia)). lra. Qed.
Lemma desired_held : forall f ops t y v Y V, sorts64 f -> List.Forall TrackDoublesSpec.timed ops -> bpow radix2 (-900) <= Y <= bpow radix2 900 -> bpow radix2 (-900) <= V <= bpow radix2 900 ->
  let l := q_history ieee f ops in List.Forall (held_point Y V) l -> q_desired ieee l t = Some (y, v) -> held2 (2 * Y) y /\ held2 (2 * V) v.
Proof.
  intros f ops t y v Y V Hf Ho (Y1 & Y2) (V1 & V2) l HP H. pose proof (bpow_gt_0 radix2 (-900)) as P0.
  assert (Nt : number t). { intros Et. assert (N : q_desired ieee l t = None) by (apply C103_fails_iff; auto). congruence. }
  destruct (C103_covers f ops t _ Hf Ho Nt H) as (p & n & Ha). pose proof (C103_between f ops [] t p n Hf Ho Ha (Forall_nil _)) as Q. rewrite app_nil_r in Q. cbn [length map] in Q. destruct Q as (y' & v' & E & Q). { cbn [INR]. apply bpow_ge_0. }
  fold l in E. rewrite E in H. injection H as -> ->. pose proof Ha as (l1 & l2 & El & Hp & Hb & Hn). fold l in El. rewrite List.Forall_forall in HP. assert (Ip : In p l) by (rewrite El; apply in_mid).
  pose proof (HP p Ip) as (Fp & Hyp & Hvp). destruct Hyp as (Hy0 & Hy1). destruct Hvp as (Hv0 & Hv1). destruct n as [n|].
  - assert (In' : In n l). { rewrite El. apply in_or_app. right. right. destruct l2; [discriminate|]. injection Hn as ->. left. reflexivity. } pose proof (HP n In') as (Fn & (Ny0 & Ny1) & (Nv0 & Nv1)).
    assert (PP : plain p) by (repeat split; auto; try apply Hy0; try apply Hy1; try apply Hv0; try apply Hv1; first [apply (held_sized Y); assumption|apply (held_sized V); assumption]).
    assert (PN : plain n) by (repeat split; auto; try apply Ny0; try apply Ny1; try apply Nv0; try apply Nv1; first [apply (held_sized Y); assumption|apply (held_sized V); assumption]).
    destruct (Q PP PN) as ((Q1 & Q2) & (Q3 & Q4)). assert (Lt : lt64 t (q_time n)). { destruct l2; [discriminate|]. injection Hn as ->. inversion Hb. auto. }
    destruct (history_ok f ops Hf Ho) as (_ & TO). fold l in TO. destruct (TO p Ip) as (_ & Kp). pose proof (le64_inv _ _ Hp) as K1. pose proof (lt64_inv _ _ Lt) as K2. pose proof (fin_key _ Fn) as Kn.
    assert (FT : fin t = true) by (apply key_finite; [auto|lra]). rewrite (key_fin _ FT), (key_fin _ Fp) in *. rewrite (key_fin _ Fn) in K2.
    split; split; (eapply close_held; [| | | | |eassumption]); try eassumption; try lra.
  - destruct Q as (-> & ->). split; split; (eapply held_weak; [|eassumption]); lra.
Qed.
Lemma free_held : forall th S E f ops t u y v W V, sorts64 f -> List.Forall TrackDoublesSpec.timed ops -> 1 <= W <= bpow radix2 100 -> 1 <= V <= bpow radix2 100 -> good_tanh th -> fin (S q_cons) = true -> 0 <= f2r (S q_cons) -> tame_cut (W / 4) E ->
  let l := q_history ieee f ops in List.Forall (held_point (W / 8) (V / 2)) l -> p_free ieee th S E l t u = Some (y, v) -> held2 W y /\ held2 V v.
Proof.
  intros th S E f ops t u y v W V Hf Ho (W1 & W2) (V1 & V2) GT Fc Pc TC l HP H. unfold p_free in H. destruct (q_desired ieee l t) as [[y0 v0]|] eqn:D; [|discriminate].
  assert (L : forall e, (-900 <= e <= 0)%Z -> bpow radix2 e <= 1) by (intros e He; change 1 with (bpow radix2 0); apply bpow_le; lia). pose proof (bpow_le radix2 100 800 ltac:(lia)). pose proof (bpow_le radix2 100 900 ltac:(lia)).
  assert (P8 : bpow radix2 (-899) <= / 8) by (change (/ 8) with (bpow radix2 (-3)); apply bpow_le; lia). pose proof (bpow_le radix2 (-900) (-899) ltac:(lia)).
  destruct (desired_held f ops t y0 v0 (W / 8) (V / 2) Hf Ho) as (Hy & Hv); auto; try lra. replace (2 * (W / 8)) with (W / 4) in Hy by field. replace (2 * (V / 2)) with V in Hv by field.
  destruct (TC y0 u Hy) as ((O0 & O1) & (I0 & I1) & Fb & Pb). destruct (cut_skip E y0 u); injection H as <- <-; (split; [|exact Hv]).
  - destruct Hy. split; (eapply held_weak; [|eassumption]); lra.
  - cbn [a_mul ieee]. destruct (key_mul (S q_cons) (cut_bf E y0 u) Fc Fb) as (N & K). assert (P : 0 <= f2r (S q_cons) * f2r (cut_bf E y0 u)) by (apply Rmult_le_pos; auto).
    assert (L0 : le64 fzero (fmul (S q_cons) (cut_bf E y0 u))). { apply le64_key; [apply num0|auto|]. rewrite key_0, K. unfold clamp. pose proof inf_pos. assert (0 <= b64 (f2r (S q_cons) * f2r (cut_bf E y0 u))) by (apply (rnd_nonneg _ b64_rounding); auto). eapply Rle_trans; [|apply Rmax_r]. apply Rmin_glb; lra. }
    destruct (GT _ L0) as (Ft & Rt). split; cbn [fst snd]; (eapply held_weak; [|apply mix_held; eauto; lra]); lra.
Qed.
Lemma ctl_answers : forall c s sq at2 th S E f ops W V, close_trig c s -> sorts64 f -> List.Forall TrackDoublesSpec.timed ops -> 1 <= W <= bpow radix2 100 -> 1 <= V <= bpow radix2 100 -> good_tanh th -> fin (S q_cons) = true -> 0 <= f2r (S q_cons) -> tame_cut (W / 4) E ->
  attached W S -> List.Forall (held_point (W / 8) (V / 2)) (q_history ieee f ops) -> answers W unit (p_ctl ieee (ieee_maths sq c s at2) th S E (q_history ieee f ops)).
Proof.
  intros c s sq at2 th S E f ops W V TR Hf Ho HW HV GT Fc Pc TC AT HP k t u k' raw PF (PX & PY & _) H. unfold p_ctl in H. destruct (p_free _ _ _ _ _ _ _) as [[y v]|] eqn:D; [|discriminate]. injection H as <- <-.
  destruct (free_held th S E f ops t u y v W V Hf Ho HW HV GT Fc Pc TC HP D) as (A & B).
  destruct (law_near c s sq at2 W V S y v u TR AT PF PX PY A B (proj2 HV)) as (F1 & F2 & E3 & _). unfold numbers. rewrite E3, c0_zero. repeat split; auto using fin_number.
Qed.
Lemma cut_none : forall B, tame_cut B (no_cut ieee).
Proof. intros B y u H. cbn [no_cut cut_outer cut_inner cut_bf]. rewrite c0_zero. repeat split; try apply H. change (f2r fzero) with 0. lra. Qed.

Lemma exact_free : forall garbage k t u, p_free reals tanh (pf_field k) (exact_cut garbage k) (map qp_of (k_traj k)) t u
  = option_map qr_of (pf_desired_free garbage k t (V2 (d_x u) (d_y u)) (d_th u)).
Proof.
  intros garbage k t u. unfold p_free, pf_desired_free. rewrite desired_exact. destruct (pf_desired (k_traj k) t) as [[[y0 y1] [v0 v1]]|]; [|reflexivity]. unfold qr_of at 1. cbn [option_map fst snd vx vy cut_skip exact_cut]. unfold vec_of. cbn [fst snd].
  destruct (e_set (k_inner k) && ell_inside (k_inner k) (V2 y0 y1)); [reflexivity|]. cbn [option_map]. unfold qr_of, of_vec, p_mix. cbn [cut_outer cut_inner cut_bf exact_cut fst snd]. unfold vec_of, of_vec. cbn [fst snd pf_field a_mul a_add a_sub reals]. rewrite c1_reals.
  set (o := if e_set (k_outer k) then _ else _). set (i := if e_set (k_inner k) then _ else _). set (b := tanh _). unfold vadd, vscale. cbn [vx vy]. reflexivity.
Qed.
Lemma exact_ctl : forall garbage k t u, let p := MkDP (vx (u_pos u)) (vy (u_pos u)) (u_angle u) in let k' := pf_feedback t (u_pos u) (u_angle u) k in
  match p_ctl reals exact_maths tanh (pf_field k) (exact_cut garbage k) (map qp_of (k_traj k)) tt t p with None => None | Some (_, c) => Some (k', MkCmd (d_fwd c) (d_ang c) (d_lat c)) end
  = pf_ctl garbage k t u.
Proof.
  intros garbage k t [[x y] th] p k'. unfold p_ctl. rewrite exact_free. unfold pf_ctl, pf_raw. cbn [u_pos u_angle vx vy d_x d_y d_th p]. cbn [u_pos u_angle vx vy] in k'. fold k'.
  assert (D : pf_desired_free garbage k' (k_time k') (k_upos k') (k_theta k') = pf_desired_free garbage k t (V2 x y) th) by reflexivity. rewrite D. clear D.
  destruct (pf_desired_free garbage k t (V2 x y) th) as [[[y0 y1] [v0 v1]]|]; [|reflexivity]. cbn [option_map]. unfold qr_of. cbn [fst snd vx vy]. unfold p_law, p_person. cbn [d_fwd d_ang d_lat fst snd d_x d_y d_th pf_field a_add a_mul a_sub a_div reals x_cos x_sin x_opp exact_maths].
  rewrite c0_reals. f_equal. f_equal. subst k' p. cbn [u_pos u_angle vx vy d_x d_y d_th pf_feedback k_theta k_dist k_time k_upos k_gain k_meas]. unfold pf_person, rot, vadd, vsub, vscale. cbn [vx vy k_dist]. f_equal; unfold Rdiv; ring.
Qed.
