(** C65, C66: derivatives of the ZMP, and agreement of the step search with the phases. *)
From Coq Require Import String Reals Lra Lia ZArith List Bool Sorting.Sorted Sorting.Permutation.
From Coquelicot Require Import Coquelicot.
From Verif Require Import Prelude EvalTac Rounding FootPrint GenPhases GenSpec GenProofs GenProofs2 GenProofs3 GenProofs4
  Properties_Generator FeetTraj FeetSpec FeetProofs FeetProofs2 FeetProofs3 EllipseProofs CoMHeightSpec CoMHeightProofs
  ZMP ZMPSpec ZMPProofs ZMPProofs2 ZMPProofs3 ZMPProofs4 ZMPProofs5 Properties_ZMP.
Import ListNotations.
Open Scope R_scope.

(** C65, finding: after the first switch phase the reported velocity and acceleration are off by the world positions of
    the steps, because vectors are transformed as if they were points. *)
Theorem C65_bias_refuted : forall ops zops left right init dT srt out spl zo c',
  let g := settings_after ops in let c := z_after zops in let ph := go_ph out in
  sort_result (fp_steps left) (fp_steps right) srt -> named left -> named right ->
  generate_phases g left right init dT srt = Ok out ->
  zmp_of spl c g init dT left right out = Ok (zo, c') ->
  forall i w, (bnd ph 1 <= i)%nat -> nth_error (zo_world zo) i = Some w -> exists sL sR a b x y,
    latest (fp_steps left) (init + INR i * dT) sL /\ latest (fp_steps right) (init + INR i * dT) sR
    /\ nth_error (zo_wl zo) i = Some a /\ nth_error (zo_wr zo) i = Some b /\ nth_error (zo_zl zo) i = Some x /\ nth_error (zo_zr zo) i = Some y
    /\ w_v w = vadd (zmp_velocity sL sR a b x y) (vadd (vscale (p_p a) (st_pos sL)) (vscale (p_p b) (st_pos sR)))
    /\ w_a w = vadd (zmp_acceleration sL sR a b x y)
         (vadd (vscale (2 * p_v a + p_p a) (st_pos sL)) (vscale (2 * p_v b + p_p b) (st_pos sR))).
Proof.
  intros ops zops left right init dT srt out spl zo c' g c ph Hs NL NR Hg Hz i w Hb Hi.
  pose proof (good_history ops) as G. fold (settings_after ops) in G. fold g in G.
  destruct (run_world spl g G left right init dT srt out Hg Hs NL NR c zo c' Hz) as (oldL & oldR & Ho & LW & KW).
  destruct (KW i w Hi) as (sL & sR & a & b & x & y & T1 & T2 & E3 & E4 & E5 & E6 & ->). fold ph.
  exists sL, sR, a, b, x, y. do 6 (split; [assumption|]).
  destruct (Nat.ltb_spec i (bnd ph 1)); [lia|]. unfold world_sample. cbn [w_v w_a].
  unfold zmp_velocity, zmp_acceleration. rewrite !tf_world. unfold world_of, turned. split; apply vec2_ext; cbn; ring.
Qed.
Print Assumptions C65_bias_refuted.

(** Observable instance: over two instants in left stance the ZMP stays at (0, 1/10), but its reported velocity and
    acceleration are (0, 1/10). *)
Lemma rest_spline : forall spl T x t, spline_contract spl -> 0 < T -> 0 <= t <= T -> spl T x 0 0 x t = still x.
Proof.
  intros spl T x t Hs HT Ht. rewrite (hermite_form T x x _ HT (Hs T x 0 0 x HT) t Ht). unfold still. f_equal; field; lra.
Qed.
Theorem C65_resting_zmp_refuted : exists left right srt out, named left /\ named right
  /\ sort_result (fp_steps left) (fp_steps right) srt /\ generate_phases (settings_after []) left right 0 1 srt = Ok out
  /\ forall spl, spline_contract spl -> exists zo c', zmp_of spl (z_after []) (settings_after []) 0 1 left right out = Ok (zo, c')
     /\ forall i, (2 <= i < 4)%nat -> nth_error (zo_world zo) i = Some (MkWorld (V2 0 (1/10)) (V2 0 (1/10)) (V2 0 (1/10))).
Proof.
  exists stepL, stepR, stepSrt. destruct (step_zmp tbs (z_after [])) as (out & _ & H & Ho & Sh & Hl & _). exists out.
  destruct step_named as [N1 N2]. split; auto. split; auto. split; [exact step_sort|]. split; auto. intros spl Hspl.
  destruct (step_zmp spl (z_after [])) as (out' & zo & H' & _ & _ & _ & Hz). rewrite H in H'. injection H' as <-.
  exists zo. eexists. split; [exact Hz|]. intros i Hi.
  assert (B1 : bnd (go_ph out) 1 = 2%nat) by (unfold bnd; rewrite Sh; reflexivity).
  destruct (C48_lookup_partial [] [] stepL stepR 0 1 stepSrt out spl step_sort N1 N2 H) as [_ K]. destruct (K _ _ Hz) as (_ & LW & _ & _ & _ & _). clear K.
  destruct (nth_error (zo_world zo) i) as [w|] eqn:Ew; [|apply nth_error_None in Ew; rewrite LW, Hl in Ew; cbn in Ew; lia].
  destruct (C65_bias_refuted [] [] stepL stepR 0 1 stepSrt out spl zo _ step_sort N1 N2 H Hz i w ltac:(lia) Ew)
    as (sL & sR & a & b & x & y & T1 & T2 & Ea & Eb & Ex & Ey & Ev & Ea').
  destruct (run_values spl (settings_after []) (good_history []) stepL stepR 0 1 stepSrt out H _ _ _ Hz) as (_ & _ & _ & _ & K).
  destruct (K i ltac:(rewrite Hl; cbn; lia)) as (j & p & q & Hj & Hbj & C & Pp & Pq & _ & _ & Kw & Kx & Ky). clear K.
  assert (p = Stance). { rewrite Hl in Pp. destruct i as [|[|[|[|i]]]]; try lia; cbn in Pp; congruence. } subst p.
  assert (q = Swing) by (destruct C as [[? ->]|[[? ->]|[[? ->]|[? ->]]]]; congruence). subst q.
  rewrite Ea in Kw. injection Kw as ->. rewrite Ex in Kx. injection Kx as ->. rewrite Ey in Ky. injection Ky as ->.
  destruct (C47_complementary_shares [] [] stepL stepR 0 1 stepSrt out spl zo _ H Hz) as (_ & _ & Sh47).
  destruct (Sh47 i ltac:(rewrite Hl; cbn; lia)) as (a' & b' & Ea1 & Eb1 & _ & _ & _ & SL & _). rewrite Ea in Ea1. injection Ea1 as <-. rewrite Eb in Eb1. injection Eb1 as <-.
  destruct (SL Pp) as (_ & B0 & B1' & B2).
  assert (HT : 0 < INR (bnd (go_ph out) (S j) - bnd (go_ph out) j) * 1) by (rewrite Rmult_1_r; apply lt_0_INR; lia).
  assert (Ht : 0 <= INR (i - bnd (go_ph out) j) * 1 <= INR (bnd (go_ph out) (S j) - bnd (go_ph out) j) * 1).
  { rewrite !Rmult_1_r. split; [apply pos_INR|apply le_INR; lia]. }
  assert (EsL : sL = MkStep (V2 0 (1/10)) 0 0 "l"). { destruct T1 as [I _]. cbn in I. destruct I as [<-|[]]. reflexivity. }
  destruct (run_world spl (settings_after []) (good_history []) stepL stepR 0 1 stepSrt out H step_sort N1 N2 _ _ _ Hz) as (oldL & oldR & _ & _ & KW).
  destruct (KW i w Ew) as (sL' & sR' & a' & b' & x' & y' & U1 & U2 & U3 & U4 & U5 & U6 & Uw).
  rewrite Ea in U3. injection U3 as <-. rewrite Eb in U4. injection U4 as <-. rewrite Ex in U5. injection U5 as <-. rewrite Ey in U6. injection U6 as <-.
  assert (EsL' : sL' = MkStep (V2 0 (1/10)) 0 0 "l"). { destruct U1 as [I _]. cbn in I. destruct I as [<-|[]]. reflexivity. }
  assert (Ep : w_p w = V2 0 (1/10)).
  { rewrite Uw. destruct (Nat.ltb_spec i (bnd (go_ph out) 1)); [lia|]. unfold world_sample. cbn [w_p]. rewrite !tf_world, EsL', B0.
    cbn [lval wval z_after fold_left z_new z_stL z_swL]. unfold spv2, spv. cbn [still p_p p_v p_a vzero vx vy].
    rewrite !(rest_spline spl _ 0) by auto. unfold world_of, q_p. cbn. rewrite sin_0, cos_0. apply vec2_ext; cbn; ring. }
  destruct w as [wp wv wa]. cbn [w_p w_v w_a] in *. rewrite Ep. clear Uw Ep. do 2 f_equal.
  - rewrite Ev. unfold zmp_velocity. rewrite B0, B1'. subst sL. cbn [lval wval z_after fold_left z_new z_stL z_swL]. unfold spv2, spv. cbn [still p_p p_v p_a vzero vx vy].
    rewrite !(rest_spline spl _ 0) by auto. unfold world_of, turned, q_p, q_v. cbn. rewrite sin_0, cos_0. apply vec2_ext; cbn; ring.
  - rewrite Ea'. unfold zmp_acceleration. rewrite B0, B1', B2. subst sL. cbn [lval wval z_after fold_left z_new z_stL z_swL]. unfold spv2, spv. cbn [still p_p p_v p_a vzero vx vy].
    rewrite !(rest_spline spl _ 0) by auto. unfold world_of, turned, q_p, q_v, q_a. cbn. rewrite sin_0, cos_0. apply vec2_ext; cbn; ring.
Qed.
Print Assumptions C65_resting_zmp_refuted.

(** C65 in the first switch phase, when it does not pause: the samples are those of one smooth curve and of its first and
    second derivative.  Missing for the full C65: the later phases, where it is false. *)
Lemma mix_derives : forall a0 a1 a2 a3 c0 c1 c2 c3 l dl r dr t,
  let A := cubic a0 a1 a2 a3 in let C := cubic c0 c1 c2 c3 in
  derivable_pt_lim (fun t => p_p (A t) * (l + p_p (C t) * dl) + (1 - p_p (A t)) * (r + p_p (C t) * dr)) t
    (p_v (A t) * (l + p_p (C t) * dl) + p_p (A t) * p_v (C t) * dl + - p_v (A t) * (r + p_p (C t) * dr) + (1 - p_p (A t)) * p_v (C t) * dr)
  /\ derivable_pt_lim (fun t => p_v (A t) * (l + p_p (C t) * dl) + p_p (A t) * p_v (C t) * dl + - p_v (A t) * (r + p_p (C t) * dr) + (1 - p_p (A t)) * p_v (C t) * dr) t
    (p_a (A t) * (l + p_p (C t) * dl) + 2 * p_v (A t) * p_v (C t) * dl + p_p (A t) * p_a (C t) * dl
     + - p_a (A t) * (r + p_p (C t) * dr) + 2 * - p_v (A t) * p_v (C t) * dr + (1 - p_p (A t)) * p_a (C t) * dr).
Proof.
  intros. unfold A, C, cubic. cbn [p_p p_v p_a]. split; apply is_derive_Reals; auto_derive; auto; ring.
Qed.
Theorem C65_first_phase_partial : forall ops zops left right init dT srt out spl zo c',
  let g := settings_after ops in let c := z_after zops in let ph := go_ph out in
  spline_contract spl -> sort_result (fp_steps left) (fp_steps right) srt -> named left -> named right ->
  strictly_timed (fp_steps left) -> strictly_timed (fp_steps right) ->
  generate_phases g left right init dT srt = Ok out ->
  zmp_of spl c g init dT left right out = Ok (zo, c') ->
  g_pause g = false \/ INR (bnd ph 1) * dT <= g_switchPct g * g_maxStep g ->
  exists X V A : R -> vec2, (forall t, moves X t (V t) /\ moves V t (A t))
  /\ forall i w, (i < bnd ph 1)%nat -> nth_error (zo_world zo) i = Some w ->
     w_p w = X (INR i * dT) /\ w_v w = V (INR i * dT) /\ w_a w = A (INR i * dT).
Proof.
  intros ops zops left right init dT srt out spl zo c' g c ph Hspl Hs NL NR TL TR Hg Hz Hp.
  pose proof (good_history ops) as G. fold (settings_after ops) in G. fold g in G.
  destruct (run_values spl g G left right init dT srt out Hg c zo c' Hz) as (Hd & L1 & L2 & L3 & K).
  destruct (run_world spl g G left right init dT srt out Hg Hs NL NR c zo c' Hz) as (oldL & oldR & Ho & LW & KW).
  destruct (zmp_parts _ _ _ _ _ _ _ _ _ _ _ Hz) as (_ & _ & _ & _ & _ & Ewr & _).
  pose proof (run_no_empty spl g G left right init dT srt out Hg c zo c' Hz) as Hne. fold ph in Hne, K, KW, LW.
  destruct (run_end g G left right init dT srt out Hg Hne) as [_ Hst]. fold ph in Hst.
  destruct (generate_inv _ _ _ _ _ _ _ G Hg) as (l0 & r0 & Hl0 & Hr0 & _ & _ & _ & _ & _ & _ & P & _). destruct P. fold ph in p_hd, p_mono, p_size.
  clear p_len p_win p_end p_endlen p_time p_idx p_m.
  set (N := (2 * length (planned (go_ord out)) + 1)%nat) in *.
  pose proof (Hst 0%nat ltac:(lia)) as B01. rewrite p_hd in B01.
  assert (B1N : (bnd ph 1 <= length (ph_left ph))%nat) by (rewrite (p_size true : length (ph_left ph) = _); apply p_mono; lia).
  destruct (instant_cases g G left right init dT srt out Hg 0%nat ltac:(fold ph; lia)) as (j & p & q & Hj & Hbj & C & Sp & Sq & Pj). fold ph in Hbj, Sp, Sq.
  assert (J0 : forall j i, (i < bnd ph 1)%nat -> (bnd ph j <= i)%nat -> (j <= N)%nat -> j = 0%nat).
  { intros j' i Hi Hji HjN. destruct j'; auto. pose proof (p_mono 1%nat (S j') ltac:(lia)). lia. }
  assert (j = 0%nat) by (apply (J0 j 0%nat); lia). subst j. specialize (Pj eq_refl). clear Hbj Hj.
  rewrite p_hd in Sp, Sq.
  assert (Pz : pauses (ztimes_of g) dT (bnd ph 1) = false).
  { unfold pauses, ztimes_of. cbn [z_pause z_max z_end z_nom]. destruct Hp as [-> |Hp]; [reflexivity|].
    rewrite rgtb_f; [apply andb_false_r|]. eapply Rle_trans; [exact Hp|apply Rmax_l]. }
  pose proof (n_time dT Hd (bnd ph 1) B01) as HT.
  destruct (Hspl (INR (bnd ph 1) * dT) (p_p (init_weight c)) (p_v (init_weight c)) (p_a (init_weight c)) (target (Nat.eqb 1 N) p) HT)
    as (a0 & a1 & a2 & a3 & FA & _).
  destruct (Hspl (INR (bnd ph 1) * dT) 1 0 0 0 HT) as (c0 & c1 & c2 & c3 & FC & _).
  set (zl := z_stL c). set (zr := z_stR c).
  set (L := world_of l0 zl). set (DL := vsub (world_of oldL zl) L). set (Rr := world_of r0 zr). set (DR := vsub (world_of oldR zr) Rr).
  set (A := cubic a0 a1 a2 a3) in *. set (B := cubic c0 c1 c2 c3) in *.
  set (f := fun l dl r dr t => p_p (A t) * (l + p_p (B t) * dl) + (1 - p_p (A t)) * (r + p_p (B t) * dr)).
  set (f' := fun l dl r dr t => p_v (A t) * (l + p_p (B t) * dl) + p_p (A t) * p_v (B t) * dl + - p_v (A t) * (r + p_p (B t) * dr) + (1 - p_p (A t)) * p_v (B t) * dr).
  set (f'' := fun l dl r dr t => p_a (A t) * (l + p_p (B t) * dl) + 2 * p_v (A t) * p_v (B t) * dl + p_p (A t) * p_a (B t) * dl
     + - p_a (A t) * (r + p_p (B t) * dr) + 2 * - p_v (A t) * p_v (B t) * dr + (1 - p_p (A t)) * p_a (B t) * dr).
  exists (fun t => V2 (f (vx L) (vx DL) (vx Rr) (vx DR) t) (f (vy L) (vy DL) (vy Rr) (vy DR) t)).
  exists (fun t => V2 (f' (vx L) (vx DL) (vx Rr) (vx DR) t) (f' (vy L) (vy DL) (vy Rr) (vy DR) t)).
  exists (fun t => V2 (f'' (vx L) (vx DL) (vx Rr) (vx DR) t) (f'' (vy L) (vy DL) (vy Rr) (vy DR) t)).
  split.
  { intros t. unfold moves, f, f', f''. cbn [vx vy]. split; split; apply mix_derives. }
  intros i w Hi Hw. destruct (KW i w Hw) as (sL & sR & a & b & x & y & T1 & T2 & E3 & E4 & E5 & E6 & ->).
  destruct (K i ltac:(lia)) as (j & p' & q' & Hj & Hb & C' & Pp & Pq & _ & _ & Ka & Kx & Ky).
  assert (j = 0%nat) by (apply (J0 j i); lia). subst j.
  assert (p' = p) by (specialize (Sp i ltac:(lia)); congruence). subst p'. assert (q' = q) by (specialize (Sq i ltac:(lia)); congruence). subst q'. clear C'.
  rewrite E3 in Ka. rewrite E5 in Kx. rewrite E6 in Ky. injection Ka as ->. injection Kx as ->. injection Ky as ->.
  rewrite Ewr, nth_error_map, E3 in E4. injection E4 as <-. change (Nat.eqb 0 0) with true. rewrite p_hd, !Nat.sub_0_r.
  assert (Hti : 0 <= INR i * dT <= INR (bnd ph 1) * dT) by (split; [apply Rmult_le_pos; [apply pos_INR|lra]|apply k_time; auto; lia]).
  assert (Ew : wval spl (ztimes_of g) dT (init_weight c) true (Nat.eqb 1 N) p (bnd ph 1) i = A (INR i * dT)).
  { rewrite <- FA by auto. unfold wval. rewrite Pz. destruct Pj as [-> | ->]; reflexivity. }
  assert (Qj : q = SwitchIn \/ q = SwitchOut) by (destruct C as [[-> ->]|[[-> ->]|[[-> ->]|[-> ->]]]]; destruct Pj; auto; discriminate).
  assert (Ex : lval spl (ztimes_of g) dT (z_stL c) (z_swL c) true (Nat.eqb 1 N) p (bnd ph 1) i = still2 zl) by (destruct Pj as [-> | ->]; reflexivity).
  assert (Ey : lval spl (ztimes_of g) dT (z_stR c) (z_swR c) true (Nat.eqb 1 N) q (bnd ph 1) i = still2 zr) by (destruct Qj as [-> | ->]; reflexivity).
  change (match N with 1%nat => true | _ => false end) with (Nat.eqb 1 N).
  rewrite Ew, Ex, Ey.
  assert (First : forall b s, latest (fp_steps (foot_of left right b)) (init + INR i * dT) s -> hd_error (fp_steps (foot_of left right b)) = Some s).
  { intros bb s (I1 & I2 & _). destruct (foot_step_cases g G left right init dT srt out Hg Hs TL bb s I1) as [|(k & t & Q1 & Q2 & Q3)]; auto. exfalso.
    rewrite <- Q3 in I2. pose proof (landed_time g G left right init dT srt out Hg k t i Hd Q1 I2) as Q. fold ph in Q.
    assert (Hk : (k < length (planned (go_ord out)))%nat) by (apply nth_error_Some; congruence).
    pose proof (p_mono 1%nat (2 * k + 2)%nat ltac:(unfold N; lia)). lia. }
  pose proof (First true sL T1) as F1. pose proof (First false sR T2) as F2. cbn [foot_of] in F1, F2.
  assert (sL = l0) by congruence. assert (sR = r0) by congruence. subst sL sR.
  destruct (Nat.ltb_spec i (bnd ph 1)); [|lia]. unfold world_sample. cbn [w_p w_v w_a].
  assert (Ec : correction spl dT (bnd ph 1) i = B (INR i * dT)).
  { unfold correction. destruct (Nat.ltb_spec i (bnd ph 1)); [|lia]. apply FC; auto. }
  rewrite Ec.
  replace (q_p (still2 zl)) with zl by (destruct zl; reflexivity). replace (q_p (still2 zr)) with zr by (destruct zr; reflexivity).
  rewrite ?(tf_world l0), ?(tf_world r0), ?(tf_world oldL), ?(tf_world oldR). fold L Rr DL DR. unfold f, f', f'', mirror. cbn [p_p p_v p_a].
  split; [|split]; apply vec2_ext; cbn [vx vy vadd vscale]; ring.
Qed.
Print Assumptions C65_first_phase_partial.

(** C66. *)
Theorem C66_search_matches_phases : forall ops zops left right init dT srt out spl zo c',
  let g := settings_after ops in let c := z_after zops in let ph := go_ph out in
  spline_contract spl -> sort_result (fp_steps left) (fp_steps right) srt -> 
  strictly_timed (fp_steps left) -> strictly_timed (fp_steps right) -> alternating (planned (go_ord out)) ->
  generate_phases g left right init dT srt = Ok out ->
  zmp_of spl c g init dT left right out = Ok (zo, c') ->
  forall b i s s' first x, hd_error (fp_steps (if b : bool then left else right)) = Some first ->
    latest (fp_steps (if b then left else right)) (init + INR i * dT) s ->
    stands_on first (planned (go_ord out)) ph b i s' ->
    nth_error (if b then zo_wl zo else zo_wr zo) i = Some x ->
    s = s' \/ p_p x = 0 /\ p_v x = 0.
Proof.
  intros ops zops left right init dT srt out spl zo c' g c ph Hspl Hs TL TR Ha Hg Hz b i s s' first x Hf Hl Hst Hx.
  pose proof (good_history ops) as G. fold (settings_after ops) in G. fold g in G.
  destruct (run_values spl g G left right init dT srt out Hg c zo c' Hz) as (Hd & L1 & L2 & L3 & K).
  destruct (zmp_parts _ _ _ _ _ _ _ _ _ _ _ Hz) as (_ & _ & _ & _ & _ & Ewr & _).
  pose proof (run_no_empty spl g G left right init dT srt out Hg c zo c' Hz) as Hne.
  destruct (run_end g G left right init dT srt out Hg Hne) as [He Hstr].
  destruct (lookup_agrees g G left right init dT srt out Hg Hs TL TR b i s s' first) as [|(k & t & Q1 & Q2 & Q3)];
    [destruct b; exact Hf|destruct b; exact Hl|exact Hst|auto|right]. fold ph in Q3.
  destruct (impact_phase g G left right init dT srt out Hg Ha Hne k t Q1) as (Hj & S1 & S2). fold ph in S1, S2, Hstr.
  pose proof (Hstr _ Hj) as Hlt.
  assert (Hi : (i < length (ph_left ph))%nat).
  { destruct b; [unfold ph; rewrite <- L1; apply nth_error_Some; congruence|]. rewrite Ewr, nth_error_map in Hx. unfold ph. rewrite <- L1. apply nth_error_Some. destruct (nth_error (zo_wl zo) i); [discriminate|discriminate]. }
  destruct (K i Hi) as (j & p & q & Hj' & Hb & C & Pp & Pq & _ & _ & Ka & _). fold ph in Hb, Pp, Pq, Ka.
  destruct (generate_inv _ _ _ _ _ _ _ G Hg) as (l0 & r0 & _ & _ & _ & _ & _ & _ & _ & _ & P & _). destruct P. fold ph in p_mono. clear p_len p_hd p_size p_win p_end p_endlen p_time p_idx p_m.
  assert (j = (2 * k + 2)%nat).
  { destruct (Nat.lt_trichotomy j (2 * k + 2)) as [Lj|[Ej|Lj]]; auto; exfalso.
    - pose proof (p_mono (S j) (2 * k + 2)%nat ltac:(lia)). lia.
    - pose proof (p_mono (S (2 * k + 2)) j ltac:(lia)). lia. }
  subst j. rewrite Q3 in Ka. rewrite Nat.sub_diag in Ka. replace (Nat.eqb (2 * k + 2) 0) with false in Ka by (symmetry; apply Nat.eqb_neq; lia).
  specialize (S1 i ltac:(lia)). specialize (S2 i ltac:(lia)).
  destruct (wval_start spl (ztimes_of g) dT Hd (Zend g G) Hspl (init_weight c) (Nat.eqb (S (2 * k + 2)) (2 * length (planned (go_ord out)) + 1)) p
    (bnd ph (S (2 * k + 2)) - bnd ph (2 * k + 2)) ltac:(lia) He) as [W1 W2].
  set (X := wval _ _ _ _ _ _ _ _ _) in Ka, W1, W2. clearbody X.
  rewrite <- Q3 in Ka at 1. destruct b; rewrite Q2 in S1, S2; cbn [foot_phases negb] in S1, S2.
  - rewrite Ka in Hx. injection Hx as <-. assert (p = SwitchIn) by congruence. subst p. auto.
  - rewrite Ewr, nth_error_map, Ka in Hx. injection Hx as <-. assert (p = SwitchOut) by congruence. subst p. unfold mirror. cbn [p_p p_v]. rewrite W1, W2. lra.
Qed.
Print Assumptions C66_search_matches_phases.
(** Hypotheses of C65 and C66 met: the right foot steps once, and the first switch (2 samples of 1 s) does not pause. *)
Example C66_example : spline_contract tbs /\ sort_result (fp_steps stepL) (fp_steps stepR) stepSrt
  /\ named stepL /\ named stepR /\ strictly_timed (fp_steps stepL) /\ strictly_timed (fp_steps stepR)
  /\ exists out zo c', alternating (planned (go_ord out)) /\ length (planned (go_ord out)) = 1%nat
  /\ generate_phases (settings_after []) stepL stepR 0 1 stepSrt = Ok out
  /\ zmp_of tbs (z_after []) (settings_after []) 0 1 stepL stepR out = Ok (zo, c')
  /\ bnd (go_ph out) 1 = 2%nat /\ INR (bnd (go_ph out) 1) * 1 <= g_switchPct (settings_after []) * g_maxStep (settings_after []).
Proof.
  destruct step_named, step_timed. split; [exact tbs_contract|]. split; [exact step_sort|]. do 4 (split; [assumption|]).
  destruct (step_zmp tbs (z_after [])) as (out & zo & Hg & Ho & Hs & _ & Hz). exists out, zo. eexists. rewrite Ho.
  split. { intros k t t' E1 E2. destruct k; [discriminate|destruct k; discriminate]. }
  split; [reflexivity|]. split; [exact Hg|]. split; [exact Hz|]. unfold bnd. rewrite Hs. cbn. split; [reflexivity|lra].
Qed.
