(** C109: the person following controller in doubles gives the tracked point the velocity of its control law. *)
From Coq Require Import Reals ZArith List Bool Lia Lra.
From Flocq Require Import Core IEEE754.BinarySingleNaN.
From Verif Require Import Prelude UnicycleFoot Ellipse Controllers ControlSpec PersonFollowing PersonSpec PersonProofs Rounding RoundedGen RoundedGenSpec RoundedGenProofs2 RoundedGenProofs3
  Doubles DoublesSpec DoublesProofs DoublesProofs2 DoublesProofs3 CtrlDoubles CtrlDoublesSpec CtrlDoublesProofs NavDoublesSpec StepDoublesSpec StepDoublesProofs StepDoublesProofs5 EllDoublesProofs
  UniDoubles UniDoublesSpec UniDoublesProofs UniDoublesProofs2 Properties_UniDoubles TrackDoubles TrackDoublesSpec TrackDoublesProofs Properties_TrackDoubles PersonDoubles PersonDoublesSpec PersonDoublesProofs PersonDoublesProofs2.
Import ListNotations.
Open Scope R_scope.

(** The commands are finite, and a unicycle that obeys them carries the tracked point at the desired velocity minus the gain times the
    error, up to rounding. *)
Theorem C109_law : forall S y v u B V sq c s at2, close_trig c s -> attached B S -> pose_fin u -> Rabs (f2r (d_x u)) <= B -> Rabs (f2r (d_y u)) <= B -> held2 B y -> held2 V v -> V <= bpow radix2 100 ->
  let o := p_law ieee (ieee_maths sq c s at2) S y v u in
  fin (d_fwd o) = true /\ fin (d_ang o) = true /\ d_lat o = c0 ieee
  /\ forall px py th z, px z = f2r (d_x u) -> py z = f2r (d_y u) -> th z = f2r (d_th u) ->
     derivable_pt_lim px z (f2r (d_fwd o) * cos (th z)) -> derivable_pt_lim py z (f2r (d_fwd o) * sin (th z)) -> derivable_pt_lim th z (f2r (d_ang o)) ->
     let k := f2r (S q_gain) in let tol := (1 + Rabs (f2r (S q_distY) / f2r (S q_distX))) * (V + 4 * k * B) * bpow radix2 (-46) in
     exists vx vy, derivable_pt_lim (carried_x S px th) z vx /\ derivable_pt_lim (carried_y S py th) z vy
       /\ Rabs (vx - (f2r (fst v) - k * (carried_x S px th z - f2r (fst y)))) <= tol /\ Rabs (vy - (f2r (snd v) - k * (carried_y S py th z - f2r (snd y)))) <= tol.
Proof.
  intros S y v u B V sq c s at2 TR AT PF PX PY HY HV V1 o. destruct (law_near c s sq at2 B V S y v u TR AT PF PX PY HY HV V1) as (F1 & F2 & E3 & _). fold o in F1, F2, E3. repeat (split; [assumption|]).
  intros px py th z Ex Ey Et Dx Dy Dt k tol. destruct (law_velocity64 c s sq at2 B V S y v u TR AT PF PX PY HY HV V1) as (Q1 & Q2). fold o in Q1, Q2. fold k in Q1, Q2. fold tol in Q1, Q2.
  set (f := f2r (d_fwd o)) in *. set (w := f2r (d_ang o)) in *. set (dx := f2r (S q_distX)) in *. set (dy := f2r (S q_distY)) in *.
  destruct (attached_derivative px py th z (V2 dx dy) (V2 (f * cos (th z)) (f * sin (th z))) w Dx Dy Dt) as (A1 & A2).
  eexists _, _. split; [exact A1|]. split; [exact A2|]. unfold carried, carried_x, carried_y. cbn [vx vy]. fold dx dy. rewrite Ex, Ey, Et in *. clear A1 A2. split.
  - eapply Rle_trans; [|exact Q1]. apply Req_le. match goal with |- Rabs ?a = Rabs ?b => replace a with b; [reflexivity|ring] end.
  - eapply Rle_trans; [|exact Q2]. apply Req_le. match goal with |- Rabs ?a = Rabs ?b => replace a with b; [reflexivity|ring] end.
Qed.
Print Assumptions C109_law.

(** The whole loop: desired points, blending with the free space, control law, saturation and integration.  The pose stays finite and the
    limits of C108 hold, whatever the trajectory does. *)
Theorem C109_loop : forall l lin ang sq c s at2 th E f ops W V steps u u', List.Forall tame l -> sat64 l = Some (lin, ang) -> moderate lin ang (turn64 l) (back64 l) (side64 l) ->
  close_trig c s -> good_tanh th -> sorts64 f -> List.Forall TrackDoublesSpec.timed ops -> let S := settings ieee l in
  attached W S -> fin (S q_cons) = true -> tame_cut (W / 4) E -> 1 <= V <= bpow radix2 100 -> List.Forall (held_point (W / 8) (V / 2)) (q_history ieee f ops) ->
  List.Forall step_ok steps -> pose_fin u ->
  let F := top_speed (f2r lin) (f2r (back64 l)) (f2r (side64 l)) in let T := lasting steps in let n := length steps in world W F (f2r ang) T n u ->
  let M := ieee_maths sq c s at2 in
  u_roll ieee M (p_ctl ieee M th S E (q_history ieee f ops)) S tt u steps = Some (tt, u') ->
  pose_fin u' /\ moved u u' <= F * T + INR n * (W * bpow radix2 (-48)) /\ Rabs (f2r (d_th u') - f2r (d_th u)) <= f2r ang * T + INR n * (W * bpow radix2 (-51)).
Proof.
  intros l lin ang sq c s at2 th E f ops W V steps u u' TL SL MD TR GT Hf Ho S AT Fc TC HV HP OK PF F T n WD M H.
  assert (Pc : 0 <= f2r (S q_cons)). { destruct (DoublesSpec.v_person _ (valid_history l TL)) as (_ & _ & _ & Z). fold S in Z. apply le64_inv in Z. rewrite key_0, key_fin in Z; auto. }
  assert (HW : 1 <= W <= bpow radix2 100) by (split; [apply (w_size _ _ _ _ _ _ WD)|apply AT]).
  exact (C108_travel unit _ l lin ang sq c s at2 W steps tt u tt u' TL SL MD TR (ctl_answers c s sq at2 th S E f ops W V TR Hf Ho HW HV GT Fc Pc TC AT HP) OK PF WD H).
Qed.
Print Assumptions C109_loop.
(** Without ellipses the condition on them holds. *)
Theorem C109_no_ellipse : forall B, tame_cut B (no_cut ieee).
Proof. exact cut_none. Qed.
Print Assumptions C109_no_ellipse.

(** With exact numbers the model is the one of C11 to C16. *)
Theorem C109_exact_model : forall garbage k t u, let p := MkDP (vx (u_pos u)) (vy (u_pos u)) (u_angle u) in let k' := pf_feedback t (u_pos u) (u_angle u) k in
  match p_ctl reals exact_maths tanh (pf_field k) (exact_cut garbage k) (map qp_of (k_traj k)) tt t p with None => None | Some (_, c) => Some (k', MkCmd (d_fwd c) (d_ang c) (d_lat c)) end
  = pf_ctl garbage k t u.
Proof. exact exact_ctl. Qed.
Print Assumptions C109_exact_model.

(** A NaN as angular velocity takes the limit of the forward velocity away. *)
Lemma nan_free : forall sq c s at2 S raw, d_ang raw = fnan -> let o := d_control ieee (ieee_maths sq c s at2) S raw in d_ang o = fnan /\ d_fwd o = d_fwd raw.
Proof.
  assert (L1 : forall x : f64, Bltb x fnan = false) by (intros x; destruct x as [[]|[]| |[] ? ? ?]; reflexivity). assert (L2 : forall x : f64, Bltb fnan x = false) by (intros x; reflexivity).
  assert (M1 : forall x, fmul x fnan = fnan) by (intros x; destruct x; reflexivity). assert (D1 : forall x, fdiv x fnan = fnan) by (intros x; destruct x; reflexivity).
  intros sq c s at2 S raw H o. subst o. unfold d_control. cbn [d_ang d_fwd]. rewrite H.
  assert (W : forall x, d_saturate2 ieee (ieee_maths sq c s at2) fnan x = fnan). { intros x. unfold d_saturate2, d_saturate3. cbn [a_lt ieee]. rewrite L1, L2. destruct (_ || _); reflexivity. }
  rewrite W. split; [reflexivity|]. unfold d_speed. cbn [a_div a_add a_mul ieee x_sqrt x_opp ieee_maths]. change (fsqrt (fmul fnan fnan)) with fnan. rewrite M1. assert (A1 : fadd (c1 ieee) fnan = fnan) by (rewrite c1_one; destruct f1; reflexivity). rewrite A1, D1, M1.
  unfold d_saturate3. cbn [a_lt ieee]. rewrite !L2. cbn [orb]. rewrite L1. reflexivity.
Qed.
(** The smallest double is accepted as a distance, and then a person straight ahead makes the angular velocity a NaN, before and after the
    saturation; the forward velocity is not limited any more. *)
Theorem C109_tiny_distance_refuted : let d := sDist (fmake 1 (-1074)) fzero in List.Forall tame [d] /\ snd (setv ieee d (initv ieee)) = true
  /\ forall S' sq c s at2, let M := ieee_maths sq c s at2 in c fzero = f1 -> s fzero = fzero ->
     let raw := p_law ieee M (settings ieee [d]) (f1, fzero) (fzero, fzero) (MkDP fzero fzero fzero) in
     let o := d_control ieee M S' raw in d_ang o = fnan /\ d_fwd o = d_fwd raw.
Proof.
  intros d. split; [|split].
  - constructor; [|constructor]. split; [|exact I]. intros x [<-|[<-|[]]]; apply number_nan; vm_compute; reflexivity.
  - vm_compute. reflexivity.
  - intros S' sq c s at2 M Hc Hs raw. apply nan_free.
    assert (N : is_nan (d_ang raw) = true). { subst raw. unfold p_law, p_person. cbn [d_ang d_x d_y d_th x_cos x_sin x_opp M ieee_maths]. rewrite Hc, Hs. vm_compute. reflexivity. }
    destruct (d_ang raw); try discriminate N; reflexivity.
Qed.
Print Assumptions C109_tiny_distance_refuted.
(** An infinite conservative factor is accepted, and then, without any ellipse, every command is a NaN. *)
Theorem C109_infinite_factor_refuted : let d := sCons finf in List.Forall tame [d] /\ snd (setv ieee d (initv ieee)) = true
  /\ forall S' sq c s at2 th l t u y v, let M := ieee_maths sq c s at2 in th fnan = fnan -> q_desired ieee l t = Some (y, v) ->
     exists raw, p_ctl ieee M th (settings ieee [d]) (no_cut ieee) l tt t u = Some (tt, raw) /\ let o := d_control ieee M S' raw in d_ang o = fnan /\ d_fwd o = fnan.
Proof.
  assert (M1 : forall x, fmul x fnan = fnan) by (intros x; destruct x; reflexivity). assert (S1 : forall x, fsub x fnan = fnan) by (intros x; destruct x; reflexivity). assert (A1 : forall x, fadd x fnan = fnan) by (intros x; destruct x; reflexivity).
  intros d. split; [|split].
  - constructor; [|constructor]. split; [|exact I]. intros x [<-|[]]. discriminate.
  - vm_compute. reflexivity.
  - intros S' sq c s at2 th l t u y v M Ht D. eexists. split. { unfold p_ctl, p_free. rewrite D. cbn [no_cut cut_skip cut_outer cut_inner cut_bf]. reflexivity. }
    assert (B : th (a_mul ieee (settings ieee [d] q_cons) (c0 ieee)) = fnan). { assert (E : a_mul ieee (settings ieee [d] q_cons) (c0 ieee) = fnan); [|rewrite E; exact Ht]. assert (N : is_nan (a_mul ieee (settings ieee [d] q_cons) (c0 ieee)) = true) by (vm_compute; reflexivity). destruct (a_mul _ _ _); try discriminate N; reflexivity. }
    rewrite B. assert (P : forall i o, p_mix ieee fnan i o = fnan) by (intros i o; reflexivity). rewrite !P. cbn [fst snd].
    cbv zeta. match goal with |- context [d_control _ _ _ ?raw] => assert (R1 : d_ang raw = fnan); [|assert (R2 : d_fwd raw = fnan)] end.
    + unfold p_law. cbn [d_ang fst snd a_sub a_mul a_add ieee]. rewrite ?S1, ?M1, ?S1, ?M1. apply A1.
    + unfold p_law. cbn [d_fwd fst snd a_sub a_mul a_add ieee]. rewrite ?S1, ?M1, ?S1, ?M1. apply A1.
    + destruct (nan_free sq c s at2 S' _ R1) as (Q1 & Q2). split; [exact Q1|]. transitivity (d_fwd (p_law ieee M (settings ieee [d]) (fnan, fnan) v u)); [exact Q2|exact R2].
Qed.
Print Assumptions C109_infinite_factor_refuted.

(** The trajectory of C103, the settings of a new controller with limits of 1 m/s and 1 rad/s, half a second in two steps. *)
Definition step_tanh (x : f64) : f64 := if Bltb fzero x then f1 else fzero.
Example C109_example : let l := [sSat f1 f1] in let S := settings ieee l in let steps := [(fzero, fmake 1 (-2)); (fmake 1 (-2), fmake 1 (-2))] in let u := MkDP f1 fzero f1 in let hist := q_history ieee isort64 ops103 in
  List.Forall tame l /\ sat64 l = Some (f1, f1) /\ moderate f1 f1 (turn64 l) (back64 l) (side64 l) /\ close_trig near_cos near_sin /\ good_tanh step_tanh /\ sorts64 isort64 /\ List.Forall TrackDoublesSpec.timed ops103
  /\ attached 128 S /\ fin (S q_cons) = true /\ List.Forall (held_point (128 / 8) (2 / 2)) hist /\ List.Forall step_ok steps /\ pose_fin u /\ world 128 (top_speed 1 1 1) 1 (lasting steps) 2 u
  /\ (forall sq at2, let M := ieee_maths sq near_cos near_sin at2 in exists u', u_roll ieee M (p_ctl ieee M step_tanh S (no_cut ieee) hist) S tt u steps = Some (tt, u')).
Proof.
  intros l S steps u hist. destruct f1_ok as (F1 & V1). destruct C108_example as (E1 & E2 & E3 & E4 & _ & E5 & E6 & _). destruct c103_case as (H1 & H2 & _). fold l in E1, E2, E3. fold steps in E5. fold u in E6.
  assert (Q : f2r (fmake 1 (-2)) = / 4). { assert (E : F2R (Float radix2 1 (-2)) = / 4) by (unfold F2R; simpl; lra). destruct (fmake_ok 1 (-2)) as (A & B); rewrite E in *; [|rewrite B, <- E; apply b64_fix, is_b64_dyadic; simpl; lia]. rewrite Rabs_pos_eq by lra. pose proof pow_top. pose proof (bpow_le radix2 0 1023 ltac:(lia)). change (bpow radix2 0) with 1 in *. lra. }
  repeat (split; [assumption|]). split. { intros x _. unfold step_tanh. destruct (Bltb fzero x); [rewrite V1|change (f2r fzero) with 0]; repeat split; auto; lra. } repeat (split; [assumption|]).
  assert (B : forall x y, fin x = true -> fin y = true -> Bleb x y = true -> f2r x <= f2r y) by (intros x y Fx Fy H; apply le64_inv in H; rewrite !key_fin in H by auto; exact H).
  assert (P : forall e, (-1000 <= e <= 1000)%Z -> fin (fmake 1 e) = true /\ f2r (fmake 1 e) = bpow radix2 e).
  { intros e He. assert (E : F2R (Float radix2 1 e) = bpow radix2 e) by (unfold F2R; cbn [Fnum Fexp]; ring). destruct (fmake_ok 1 e) as (A & C); rewrite E in *.
    - rewrite Rabs_pos_eq by apply bpow_ge_0. pose proof pow_top. pose proof (bpow_le radix2 e 1023 ltac:(lia)). lra.
    - split; auto. rewrite C. replace (bpow radix2 e) with (IZR 1 * bpow radix2 e) by ring. apply b64_fix, is_b64_dyadic; lia. }
  destruct (P (-100)%Z ltac:(lia)) as (G1 & K1). destruct (P 7%Z ltac:(lia)) as (G2 & K2). destruct (P 100%Z ltac:(lia)) as (G3 & K3). change (bpow radix2 7) with 128 in K2.
  assert (X1 : bpow radix2 (-100) <= f2r (S q_distX) <= 128) by (rewrite <- K1, <- K2; split; apply B; auto; vm_compute; reflexivity). pose proof (bpow_gt_0 radix2 (-100)) as P0.
  assert (X2 : bpow radix2 (-100) <= f2r (S q_gain) <= bpow radix2 100) by (rewrite <- K1, <- K3; split; apply B; auto; vm_compute; reflexivity).
  assert (X3 : f2r (S q_distY) = 0) by (assert (Z : Beqb (S q_distY) fzero = true) by (vm_compute; reflexivity); rewrite beq_key in Z by (apply number_nan; vm_compute; reflexivity); apply Reqb_true in Z; rewrite key_fin in Z by (vm_compute; reflexivity); exact Z).
  split. { unfold attached, held. rewrite X3, Rabs_R0, (Rabs_pos_eq (f2r (S q_distX))) by lra. pose proof (bpow_le radix2 7 100 ltac:(lia)) as L7. change (bpow radix2 7) with 128 in L7. repeat split; try (vm_compute; reflexivity); lra. }
  split; [vm_compute; reflexivity|].
  assert (HD : forall z Y, (Z.abs z <= 100)%Z -> IZR (Z.abs z) <= Y -> held Y (fmake z 0)) by (intros z Y Hz HY; destruct (fmake_exact z) as (A & C); [lia|]; split; auto; rewrite C, <- abs_IZR; exact HY).
  assert (H0 : forall Y, 0 <= Y -> held Y fzero) by (intros Y HY; split; [reflexivity|]; change (f2r fzero) with 0; rewrite Rabs_R0; exact HY).
  assert (HP : forall t x y, (Z.abs t <= 100)%Z -> (Z.abs x <= 16)%Z -> (Z.abs y <= 16)%Z -> held_point (128 / 8) (2 / 2) (pt103 t x y)).
  { intros t x y Ht Hx Hy. unfold held_point, pt103, held2. cbn [q_time q_y q_yd fst snd]. assert (Z16 : forall z, (Z.abs z <= 16)%Z -> IZR (Z.abs z) <= 128 / 8) by (intros z Hz; apply IZR_le in Hz; lra).
    split; [apply fmake_exact; lia|]. split; split; try (apply HD; [lia|auto]); [apply H0; lra|simpl; lra]. }
  split. { unfold hist. rewrite history103. repeat (apply List.Forall_cons; [apply HP; simpl; lia|]). constructor. }
  split; [exact E5|]. split; [exact E6|].
  assert (LT : lasting steps = / 2) by (unfold lasting, steps; cbn [map total snd]; rewrite Q; lra).
  assert (TS : 0 <= top_speed 1 1 1 <= 2). { unfold top_speed. split; [apply sqrt_pos|]. rewrite Rmax_left by lra. apply Rsqr_incr_0_var; [|lra]. rewrite Rsqr_sqrt by lra. unfold Rsqr. lra. }
  pose proof (bpow_le radix2 7 40 ltac:(lia)) as P1. change (bpow radix2 7) with 128 in P1. pose proof (bpow_le radix2 40 400 ltac:(lia)) as P2.
  split. { constructor; rewrite ?LT; unfold within, u; cbn [d_x d_y d_th]; rewrite ?V1; change (f2r fzero) with 0; rewrite ?Rabs_R0, ?Rabs_R1; simpl INR; repeat split; lra. }
  assert (DS : forall t, number t -> Bltb t fzero = false -> Bltb t (fmake 0 0) = false -> exists r, q_desired ieee hist t = Some r).
  { intros t Nt L1 L2. destruct (q_desired ieee hist t) as [r|] eqn:D; [eauto|]. exfalso. apply (C103_fails_iff isort64 ops103 t H1 H2) in D. destruct D as [D|[D|[D|(p & r & D & D')]]]; [contradiction| | |].
    - unfold lt64 in D. congruence.
    - rewrite history103 in D. discriminate.
    - rewrite history103 in D. injection D as <- _. unfold lt64, pt103 in D'. cbn [q_time] in D'. congruence. }
  destruct (DS fzero) as ((y0 & v0) & D0); [discriminate|reflexivity|vm_compute; reflexivity|]. destruct (DS (fmake 1 (-2))) as ((y1 & v1) & D1); [apply number_nan; vm_compute; reflexivity|vm_compute; reflexivity|vm_compute; reflexivity|].
  intros sq at2 M. eexists. unfold steps. cbn [u_roll]. unfold p_ctl at 1, p_free at 1. rewrite D0. cbn [no_cut cut_skip]. unfold p_ctl, p_free. rewrite D1. cbn [no_cut cut_skip]. reflexivity.
Qed.
