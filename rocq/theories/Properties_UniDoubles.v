(** C108: the unicycle integrated in doubles cannot outrun its limits. *)
From Coq Require Import Reals ZArith List Bool Lia Lra.
From Flocq Require Import Core IEEE754.BinarySingleNaN.
From Verif Require Import Prelude UnicycleFoot Rounding RoundedGen RoundedGenSpec RoundedGenProofs2 RoundedGenProofs3 PlannerSearch Planner Controllers ControlSpec
  Doubles DoublesGen DoublesSpec DoublesProofs DoublesProofs2 CtrlDoubles CtrlDoublesSpec CtrlDoublesProofs StepDoubles StepDoublesSpec StepDoublesProofs StepDoublesProofs5
  NavDoublesProofs UniDoubles UniDoublesSpec UniDoublesProofs UniDoublesProofs2.
Import ListNotations.
Open Scope R_scope.

(** Whatever the controller asks for (infinities included), the pose stays finite; the unicycle moves at most at the top speed the user
    configured and turns at most at the angular limit, up to the rounding of the coordinates in every step. *)
Theorem C108_travel : forall K ctl l lin ang sq c s at2 W steps k u k' u', List.Forall tame l -> sat64 l = Some (lin, ang) ->
  moderate lin ang (turn64 l) (back64 l) (side64 l) -> close_trig c s -> answers W K ctl -> List.Forall step_ok steps -> pose_fin u ->
  let V := top_speed (f2r lin) (f2r (back64 l)) (f2r (side64 l)) in let T := lasting steps in let n := length steps in
  world W V (f2r ang) T n u ->
  u_roll ieee (ieee_maths sq c s at2) ctl (settings ieee l) k u steps = Some (k', u') ->
  pose_fin u' /\ moved u u' <= V * T + INR n * (W * bpow radix2 (-48))
  /\ Rabs (f2r (d_th u') - f2r (d_th u)) <= f2r ang * T + INR n * (W * bpow radix2 (-51)).
Proof.
  intros K ctl l lin ang sq c s at2 W steps k u k' u' H1 H2 H3 H4 H5 H6 H7 V T n H8 H9.
  exact (travel l lin ang sq c s at2 H1 H2 H3 H4 (w_fast _ _ _ _ _ _ H8) K ctl W steps k u k' u' H5 H6 H7 H8 H9).
Qed.
Print Assumptions C108_travel.

(** The limits the planner installs are finite, not negative, and worth at most one step per minimum step time. *)
Theorem C108_limits : forall P sq c s at2, List.Forall tame P -> good_square sq -> let S := settings ieee P in usual S -> u_refused ieee S = false ->
  let lin := u_lin ieee (ieee_maths sq c s at2) S in let ang := u_ang ieee S in
  fin lin = true /\ fin ang = true /\ 0 <= f2r lin /\ 0 <= f2r ang
  /\ f2r lin * f2r (S q_minT) <= sqrt (f2r (S q_maxLen) ^ 2 - f2r (S q_nomWidth) ^ 2) + bpow radix2 (-25) * f2r (S q_maxLen)
  /\ f2r ang * f2r (S q_minT) <= f2r (S q_maxAngle) + bpow radix2 (-51) * f2r (S q_maxAngle) + bpow radix2 (-900).
Proof.
  intros P sq c s at2 H1 H2 S H3 H4 lin ang. destruct (planner_limits P sq c s at2 H1 H2 H3 H4) as (A & B & C & (D & _) & E & F). auto 10.
Qed.
Print Assumptions C108_limits.

(** Within the minimum step time the unicycle turns by at most the maximum angle of a step; with a lateral factor of 0 it moves by at
    most the forward reach of a step. *)
Theorem C108_planner_step : forall K ctl P l sq c s at2 W steps k u k' u', List.Forall tame P -> List.Forall tame l -> good_square sq -> close_trig c s -> answers W K ctl ->
  let S := settings ieee P in usual S -> u_refused ieee S = false ->
  let M := ieee_maths sq c s at2 in let lin := u_lin ieee M S in let ang := u_ang ieee S in
  fin (turn64 l) = true -> fin (back64 l) = true -> fin (side64 l) = true ->
  let F := top_speed 1 (f2r (back64 l)) (f2r (side64 l)) in let T := lasting steps in let n := length steps in
  List.Forall step_ok steps -> T <= f2r (S q_minT) -> pose_fin u -> world W (f2r lin * F) (f2r ang) T n u ->
  u_roll ieee M ctl (settings ieee (l ++ [sSat lin ang])) k u steps = Some (k', u') ->
  snd (setv ieee (sSat lin ang) (settings ieee l)) = true
  /\ Rabs (f2r (d_th u') - f2r (d_th u)) <= f2r (S q_maxAngle) * (1 + bpow radix2 (-51)) + bpow radix2 (-900) + INR n * (W * bpow radix2 (-51))
  /\ moved u u' <= F * (sqrt (f2r (S q_maxLen) ^ 2 - f2r (S q_nomWidth) ^ 2) + bpow radix2 (-25) * f2r (S q_maxLen)) + INR n * (W * bpow radix2 (-48)).
Proof.
  intros K ctl P l sq c s at2 W steps k u k' u' TP TL GS TR AN S US NR M lin ang F1 F2 F3 F T n OK TM Fu WD E.
  destruct (planner_limits P sq c s at2 TP GS US NR) as (A & B & C & (D & D') & G & H). fold S M lin ang in A, B, C, D, D', G, H.
  assert (L1 : le64 fzero lin) by (apply le64_key; auto using fin_number; rewrite key_0, key_fin; auto). assert (L2 : le64 fzero ang) by (apply le64_key; auto using fin_number; rewrite key_0, key_fin; auto).
  assert (TL' : List.Forall tame (l ++ [sSat lin ang])). { apply Forall_app. split; auto. constructor; [|constructor]. split; [|exact I]. intros x [<-|[<-|[]]]; apply fin_number; auto. }
  destruct (factors_last l lin ang) as (E1 & E2 & E3). assert (MD : moderate lin ang (turn64 (l ++ [sSat lin ang])) (back64 (l ++ [sSat lin ang])) (side64 (l ++ [sSat lin ang]))).
  { rewrite E1, E2, E3. unfold moderate. repeat split; auto. pose proof (bpow_le radix2 310 511 ltac:(lia)). lra. }
  assert (WD' : world W (top_speed (f2r lin) (f2r (back64 (l ++ [sSat lin ang]))) (f2r (side64 (l ++ [sSat lin ang])))) (f2r ang) T n u) by (rewrite E2, E3, top_speed_scale by auto; exact WD).
  destruct (C108_travel K ctl _ lin ang sq c s at2 W steps k u k' u' TL' (sat64_last l lin ang L1 L2) MD TR AN OK Fu WD' E) as (_ & R1 & R2). rewrite E2, E3, top_speed_scale in R1 by auto. fold F T n in R1, R2.
  assert (T0 : 0 <= T) by (apply lasting_pos; auto). assert (F0 : 0 <= F) by apply sqrt_pos.
  split. { cbn [setv below0]. unfold below0. cbn [a_lt ieee]. unfold le64 in L1, L2. change (c0 ieee) with (c0 ieee). rewrite c0_zero. replace (Bltb lin fzero) with false by (symmetry; rewrite blt_key by (auto using fin_number; discriminate); rewrite key_0, key_fin by auto; rcases; auto; lra).
    replace (Bltb ang fzero) with false by (symmetry; rewrite blt_key by (auto using fin_number; discriminate); rewrite key_0, key_fin by auto; rcases; auto; lra). reflexivity. }
  split.
  - assert (f2r ang * T <= f2r ang * f2r (S q_minT)) by (apply Rmult_le_compat_l; auto). lra.
  - eapply Rle_trans; [exact R1|]. apply Rplus_le_compat_r. apply Rle_trans with (F * (f2r lin * f2r (S q_minT))); [|apply Rmult_le_compat_l; auto].
    replace (f2r lin * F * T) with (F * (f2r lin * T)) by ring. apply Rmult_le_compat_l; auto. apply Rmult_le_compat_l; auto.
Qed.
Print Assumptions C108_planner_step.

(** The computation is that of the exact model (C09) with doubles in place of real numbers; the limits too. *)
Theorem C108_exact_model : forall K ctl S sq at2 hs k t u,
  u_roll reals (MkMaths R Ropp sqrt sq cos sin at2) (fun k t p => match ctl k t (unpose p) with None => None | Some (k', c) => Some (k', MkDC (c_fwd c) (c_ang c) (c_lat c)) end) S k
         (MkDP (vx (u_pos u)) (vy (u_pos u)) (u_angle u)) (timed t hs)
  = match rollout K ctl (MkBase (S q_satLin) (S q_satAng) (S q_turn) (S q_back) (S q_side)) k t u hs with
    | None => None | Some (k', _, u') => Some (k', MkDP (vx (u_pos u')) (vy (u_pos u')) (u_angle u')) end.
Proof. exact exact_roll. Qed.
Print Assumptions C108_exact_model.

Lemma fin_diff : forall y : f64, fin y = true -> exists z, fsub y y = B754_zero z.
Proof.
  intros y F. destruct (fsub_ok y y F F) as (A & B); [rewrite Rminus_diag_eq, Rabs_R0 by reflexivity; pose proof pow_top; pose proof (bpow_ge_0 radix2 1023); lra|]. rewrite Rminus_diag_eq in B by reflexivity. rewrite (b64_fix 0 (is_b64_int 0 ltac:(lia))) in B.
  destruct (fsub y y) as [z|z| |z m e H]; try discriminate A; [exists z; reflexivity|]. exfalso. unfold f2r in B. simpl in B. apply eq_0_F2R in B. destruct z; discriminate B.
Qed.
(** A minimum step time of 0 is accepted, and with steps no longer than the nominal width the linear limit is 0/0.  It is accepted as
    well, and then no forward or lateral speed is limited. *)
Theorem C108_zero_time_refuted : exists P, List.Forall tame P /\ let S := settings ieee P in u_refused ieee S = false
  /\ forall l raw sq c s at2, good_square sq -> let M := ieee_maths sq c s at2 in let lin := u_lin ieee M S in let ang := u_ang ieee S in
     snd (setv ieee (sSat lin ang) (settings ieee l)) = true
     /\ let out := d_control ieee M (settings ieee (l ++ [sSat lin ang])) raw in d_fwd out = d_fwd raw /\ d_lat out = d_lat raw.
Proof.
  exists [sTimings fzero f1 f1; sWidth f1 f1; sMaxLen f1]. split.
  { repeat constructor; intros x Hx; simpl in Hx; repeat destruct Hx as [<-|Hx]; try contradiction; try apply num1; discriminate. }
  intros S. split; [vm_compute; reflexivity|]. intros l raw sq c s at2 (_ & _ & SF) M lin ang.
  assert (EL : S q_maxLen = f1) by (apply same_f64; vm_compute; reflexivity). assert (EW : S q_nomWidth = f1) by (apply same_f64; vm_compute; reflexivity). assert (ET : S q_minT = fzero) by (apply same_f64; vm_compute; reflexivity).
  destruct f1_ok as (F1 & V1). assert (FS : fin (sq f1) = true). { apply SF; auto. rewrite V1, Rabs_R1. change 1 with (bpow radix2 0). apply bpow_le. lia. }
  assert (EN : lin = fnan). { unfold lin, u_lin. rewrite EL, EW, ET. cbn [a_mul a_div a_sub ieee x_sqrt x_sqr M ieee_maths]. destruct (fin_diff _ FS) as (z & ->). destruct (S q_linFac) as [[]|[]| |[] ? ? ?], z; reflexivity. }
  assert (AN : Bltb ang fzero = false) by (vm_compute; reflexivity). rewrite EN.
  assert (ES : setv ieee (sSat fnan ang) (settings ieee l) = (upd (upd (settings ieee l) q_satLin fnan) q_satAng ang, true)).
  { cbn [setv]. unfold below0. cbn [a_lt ieee]. rewrite c0_zero, AN. reflexivity. }
  rewrite ES. split; [reflexivity|]. intros out. assert (EO : out = d_control ieee M (upd (upd (settings ieee l) q_satLin fnan) q_satAng ang) raw).
  { unfold out. f_equal. unfold settings at 1. rewrite fold_left_app. cbn [fold_left]. change (fold_left _ l (initv ieee)) with (settings ieee l). rewrite ES. reflexivity. }
  rewrite EO. clear EO out. unfold d_control, d_saturate2, d_saturate3, d_speed. cbn [d_fwd d_lat a_lt a_div a_mul a_add ieee].
  set (X := upd _ _ _). assert (XL : X q_satLin = fnan) by reflexivity. rewrite XL. clearbody X.
  assert (D : forall y, fdiv fnan y = fnan) by (intros [[]|[]| |[] ? ? ?]; reflexivity). assert (E : forall y, fmul y fnan = fnan) by (intros [[]|[]| |[] ? ? ?]; reflexivity).
  assert (B1 : forall y, Bltb fnan y = false) by (intros [[]|[]| |[] ? ? ?]; reflexivity). assert (B2 : forall y, Bltb y fnan = false) by (intros [[]|[]| |[] ? ? ?]; reflexivity).
  rewrite D, !E, !B1. cbn [orb x_opp M ieee_maths]. change (fopp fnan) with fnan. rewrite !B2. auto.
Qed.
Print Assumptions C108_zero_time_refuted.

(** A controller that asks for infinite speeds, half a second in two steps from a turned pose. *)
Definition c108_ctl (n : nat) (t : f64) (u : dpose f64) : option (nat * dcmd f64) := Some (S n, MkDC finf finf (B754_infinity true)).
Example C108_example : let l := [sSat f1 f1] in let steps := [(fzero, fmake 1 (-2)); (fmake 1 (-2), fmake 1 (-2))] in let u := MkDP f1 fzero f1 in
  List.Forall tame l /\ sat64 l = Some (f1, f1) /\ moderate f1 f1 (turn64 l) (back64 l) (side64 l) /\ close_trig near_cos near_sin /\ answers 4 nat c108_ctl
  /\ List.Forall step_ok steps /\ pose_fin u /\ world 4 (top_speed 1 1 1) 1 (lasting steps) 2 u
  /\ (forall sq at2, exists u', u_roll ieee (ieee_maths sq near_cos near_sin at2) c108_ctl (settings ieee l) 0%nat u steps = Some (2%nat, u'))
  /\ good_square (fun x => fmul x x).
Proof.
  intros l steps u. destruct f1_ok as (F1 & V1). assert (Q : fin (fmake 1 (-2)) = true /\ f2r (fmake 1 (-2)) = / 4).
  { assert (E : F2R (Float radix2 1 (-2)) = / 4) by (unfold F2R; simpl; lra). destruct (fmake_ok 1 (-2)) as (A & B); rewrite E in *.
    - rewrite Rabs_pos_eq by lra. pose proof pow_top. pose proof (bpow_le radix2 0 1023 ltac:(lia)). change (bpow radix2 0) with 1 in *. lra.
    - split; auto. rewrite B. rewrite <- E. apply b64_fix, is_b64_dyadic; simpl; lia. }
  split; [repeat constructor; intros x [<-|[<-|[]]]; apply num1|]. split. { apply (sat64_last [] f1 f1); vm_compute; reflexivity. }
  split. { unfold moderate. change (turn64 l) with fzero. change (back64 l) with f1. change (side64 l) with f1. rewrite V1. repeat split; auto. change 1 with (bpow radix2 0). apply bpow_le. lia. }
  split; [apply near_trig|]. split. { intros k t w k' raw _ _ E. injection E as _ <-. repeat split; discriminate. }
  split. { repeat constructor; cbn [snd]; try apply Q; rewrite (proj2 Q); lra. }
  split; [repeat split; auto|]. assert (LT : lasting steps = / 2) by (unfold lasting, steps; cbn [map total snd]; rewrite (proj2 Q); lra).
  assert (TS : 0 <= top_speed 1 1 1 <= 2). { unfold top_speed. split; [apply sqrt_pos|]. rewrite Rmax_left by lra. apply Rsqr_incr_0_var; [|lra]. rewrite Rsqr_sqrt by lra. unfold Rsqr. lra. }
  pose proof (bpow_le radix2 2 40 ltac:(lia)) as P. change (bpow radix2 2) with 4 in P. pose proof (bpow_le radix2 40 400 ltac:(lia)) as P'.
  split. { constructor; rewrite ?LT; unfold within, u; cbn [d_x d_y d_th]; rewrite ?V1; change (f2r fzero) with 0; rewrite ?Rabs_R0, ?Rabs_R1; simpl INR; repeat split; lra. }
  split; [|apply good_fmul]. intros sq at2. eexists. unfold steps. cbn [u_roll c108_ctl]. reflexivity.
Qed.
(** The settings of a new planner. *)
Example C108_new_planner : usual (settings ieee []) /\ u_refused ieee (settings ieee []) = false.
Proof.
  assert (B : forall x y, fin x = true -> fin y = true -> Bleb x y = true -> f2r x <= f2r y) by (intros x y Fx Fy H; apply le64_inv in H; rewrite !key_fin in H by auto; exact H).
  assert (P : forall e, (-1000 <= e <= 1000)%Z -> fin (fmake 1 e) = true /\ f2r (fmake 1 e) = bpow radix2 e).
  { intros e He. assert (E : F2R (Float radix2 1 e) = bpow radix2 e) by (unfold F2R; cbn [Fnum Fexp]; ring). destruct (fmake_ok 1 e) as (A & C); rewrite E in *.
    - rewrite Rabs_pos_eq by apply bpow_ge_0. pose proof pow_top. pose proof (bpow_le radix2 e 1023 ltac:(lia)). lra.
    - split; auto. rewrite C. replace (bpow radix2 e) with (IZR 1 * bpow radix2 e) by ring. apply b64_fix, is_b64_dyadic; lia. }
  destruct (P (-100)%Z ltac:(lia)) as (F1 & V1). destruct (P 100%Z ltac:(lia)) as (F2 & V2).
  assert (Q : forall f, fin (settings ieee [] f) = true -> Bleb (fmake 1 (-100)) (settings ieee [] f) = true -> Bleb (settings ieee [] f) (fmake 1 100) = true -> bpow radix2 (-100) <= f2r (settings ieee [] f) <= bpow radix2 100).
  { intros f F L U. rewrite <- V1, <- V2. split; apply B; auto. }
  split; [|vm_compute; reflexivity]. constructor; (split; [vm_compute; reflexivity|]); apply Q; vm_compute; reflexivity.
Qed.
