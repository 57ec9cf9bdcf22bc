(** Lemmas about the DCM trajectories: the curve behind the samples, stance feet, initial states. *)
From Coq Require Import String Reals Lra Lia ZArith List Bool Sorting.Sorted Sorting.Permutation.
From Verif Require Import Prelude EvalTac Rounding FootPrint GenPhases GenSpec GenProofs GenProofs2 GenProofs3 Properties_Generator
  FeetTraj FeetSpec FeetProofs FeetProofs2 ZMP ZMPSpec ZMPProofs4 ZMPProofs5 DCM DCMSpec DCMProofs DCMProofs2 DCMProofs3 DCMProofs4.
Import ListNotations.
Open Scope R_scope.
Notation Forall := List.Forall.

(** The exponential is the only solution of the pendulum equation through its boundary point. *)
Lemma pendulum_unique : forall om z t0 x0 (X : R -> R), (forall t, derivable_pt_lim X t (om * (X t - z))) -> X t0 = x0 ->
  forall t, X t = z + exp (om * (t - t0)) * (x0 - z).
Proof.
  intros om z t0 x0 X D E0 t. set (h := fun u => (X u - z) * exp (- om * (u - t0))).
  assert (Dh : forall u, derivable_pt_lim h u 0).
  { intros u. replace 0 with (om * (X u - z) * exp (- om * (u - t0)) + (X u - z) * (- om * exp (- om * (u - t0)))) by ring.
    apply (derivable_pt_lim_mult (fun u => X u - z) (fun u => exp (- om * (u - t0)))).
    - replace (om * (X u - z)) with (om * (X u - z) - 0) by ring. apply (derivable_pt_lim_minus X (fun _ => z)); [apply D|apply derivable_pt_lim_const].
    - replace (- om * exp (- om * (u - t0))) with (exp (- om * (u - t0)) * (- om * 1)) by ring.
      apply (derivable_pt_lim_comp (fun u => - om * (u - t0)) exp); [|apply derivable_pt_lim_exp].
      apply (derivable_pt_lim_scal (fun u => u - t0) (- om)). replace 1 with (1 - 0) by ring. apply (derivable_pt_lim_minus id (fun _ => t0)); [apply derivable_pt_lim_id|apply derivable_pt_lim_const]. }
  assert (Pr : derivable h) by (intros u; exists 0; apply Dh).
  assert (Hc : constant h). { apply (null_derivative_1 h Pr). intros u. apply derive_pt_eq_0. apply Dh. }
  assert (H0 : h t0 = x0 - z) by (unfold h; rewrite E0; replace (- om * (t0 - t0)) with 0 by ring; rewrite exp_0; ring).
  specialize (Hc t t0). rewrite H0 in Hc. unfold h in Hc.
  assert (Ee : exp (om * (t - t0)) * exp (- om * (t - t0)) = 1) by (rewrite <- exp_plus; replace (om * (t - t0) + - om * (t - t0)) with 0 by ring; apply exp_0).
  rewrite <- Hc. replace (exp (om * (t - t0)) * ((X t - z) * exp (- om * (t - t0)))) with ((X t - z) * (exp (om * (t - t0)) * exp (- om * (t - t0)))) by ring. rewrite Ee. ring.
Qed.

Lemma ss_moves : forall s t, moves (ss_pos s) t (ss_vel s t).
Proof. intros s t. exact (sub_derive (SubS s) t ltac:(exact I)). Qed.
Lemma ss_pendulum : forall s t, ss_vel s t = vscale (ss_om s) (vsub (ss_pos s t) (ss_zmp s)).
Proof. intros s t. unfold ss_vel, ss_pos. apply vec2_ext; cbn; ring. Qed.

(** ZMP of a finite piece. *)
Lemma zmp_value : forall s t, finite s -> sub_om s <> 0 -> sub_zmp s t = Some (vsub (pv s t) (vscale (/ sub_om s) (vv s t))).
Proof.
  intros [s|a b o c|a b o c] t F Ho.
  - cbn [sub_zmp sub_om]. f_equal. change (vv (SubS s) t) with (ss_vel s t). change (pv (SubS s) t) with (ss_pos s t). rewrite ss_pendulum. cbn in Ho. apply vec2_ext; cbn; field; auto.
  - destruct (finite_pos _ t F) as [P V]. unfold sub_zmp. rewrite P, V. reflexivity.
  - destruct (finite_pos _ t F) as [P V]. unfold sub_zmp. rewrite P, V. reflexivity.
Qed.

(** Sample of a finite piece. *)
Lemma sample_value : forall tr t x, at_time tr t = Some x -> finite x -> sub_om x <> 0 ->
  sample_of x t = MkDS (Some (cpos tr t)) (Some (cvel tr t)) (Some (vsub (cpos tr t) (vscale (/ sub_om x) (cvel tr t)))).
Proof.
  intros tr t x H F Ho. destruct (curve_at _ _ _ H) as [-> ->]. unfold sample_of. destruct (finite_pos x t F) as [-> ->]. rewrite (zmp_value x t F Ho). reflexivity.
Qed.

(** The first piece starts at the initial state. *)
Lemma starts_walk : forall c Z dT a sw tr r, add_first c Z dT a sw tr = Ok r -> exists x q, r = x :: q /\ sub_t0 x = d_t a
  /\ (d_t a < sub_t1 x -> sub_pos x (d_t a) = Some (d_p a) /\ sub_vel x (d_t a) = Some (d_v a)).
Proof.
  assert (F : forall c a e x, mk_first c a e = Ok x -> sub_t0 x = d_t a /\ (d_t a < sub_t1 x -> sub_pos x (d_t a) = Some (d_p a) /\ sub_vel x (d_t a) = Some (d_v a))).
  { intros c a e x H. unfold mk_first in H. destruct (dc_five c).
    - destruct (mk_5_inv _ _ _ _ _ _ H) as (T0 & T1 & _). split; auto. intros L. rewrite T1 in L. destruct (mk_5_bounds _ _ _ _ H L) as (_ & _ & _ & _ & P & V & _). auto.
    - destruct (mk_3_inv _ _ _ _ H) as (T0 & T1 & _). split; auto. intros L. rewrite T1 in L. destruct (mk_3_bounds _ _ _ _ H L) as (_ & _ & _ & _ & P & V & _). auto. }
  intros c Z dT a sw tr r H. unfold add_first in H.
  apply rbind_ok in H. destruct H as (nx & _ & H). apply rbind_ok in H. destruct H as (p2 & _ & H). apply rbind_ok in H. destruct H as (v2 & _ & H).
  destruct (ds_pauses _ _).
  - apply rbind_ok in H. destruct H as (z & _ & H). apply rbind_ok in H. destruct H as (x3 & _ & H). apply rbind_ok in H. destruct H as (x2 & _ & H). apply rbind_ok in H. destruct H as (x1 & H1 & H).
    injection H as <-. exists x1, (x2 :: x3 :: tr). split; auto. eapply F; eauto.
  - apply rbind_ok in H. destruct H as (x1 & H1 & H). injection H as <-. exists x1, tr. split; auto. eapply F; eauto.
Qed.
Lemma starts : forall c Z dT ord shift lph p0 v0 tr, build c Z dT ord shift lph p0 v0 = Ok tr -> nth_error shift 0 = Some 0%nat ->
  exists x q, tr = x :: q /\ sub_t0 x = 0 /\ (0 < sub_t1 x -> sub_pos x 0 = Some p0 /\ sub_vel x 0 = Some v0).
Proof.
  intros c Z dT ord shift lph p0 v0 tr H S0. unfold build in H. destruct (Nat.ltb _ 2); [discriminate|]. destruct (Nat.ltb 2 _).
  - do 18 (cbv zeta in H; apply rbind_ok in H; destruct H as (? & _ & H)). cbv zeta in H.
    destruct lph; [discriminate|]. destruct (starts_walk _ _ _ _ _ _ _ H) as (y & q & -> & T & I). cbn in *. eauto.
  - unfold shift_at in H. rewrite S0 in H. cbn [rbind INR] in H. rewrite Rmult_0_l in H. do 6 (apply rbind_ok in H; destruct H as (? & _ & H)). apply rbind_ok in H. destruct H as (y & Hx & H). injection H as <-.
    destruct (mk_3_inv _ _ _ _ Hx) as (T0 & T1 & _). cbn in T0. exists y, []. split; auto. split; auto. intros L. rewrite T1 in L.
    destruct (mk_3_bounds _ _ _ _ Hx L) as (_ & _ & _ & _ & P & V & _). auto.
Qed.

(** The curve of a chain agrees with every piece, also where the piece begins. *)
Lemma chain_start : forall tr a e s, chain tr -> tiles a e tr -> Forall (fun s => sub_t0 s < sub_t1 s) tr -> Forall finite tr -> In s tr ->
  cpos tr (sub_t0 s) = pv s (sub_t0 s) /\ cvel tr (sub_t0 s) = vv s (sub_t0 s).
Proof.
  induction tr as [|x r IH]; intros a e s C T L F I; [destruct I|]. destruct T as (T0 & T1 & T2). inversion L as [|? ? L0 L1]; subst. inversion F as [|? ? F0 F1]; subst.
  destruct I as [->|I].
  - apply curve_at. apply at_head. lra.
  - destruct r as [|y r]; [destruct I|]. destruct C as [M C]. destruct T2 as (Ty & _ & Tr). inversion L1 as [|? ? Ly Lr]; subst. destruct I as [->|I].
    + destruct M as (Mt & p & v & P1 & V1 & P2 & V2). assert (Hh : at_time (x :: s :: r) (sub_t0 s) = Some x) by (apply at_head; lra).
      destruct (curve_at _ _ _ Hh) as [-> ->]. rewrite Mt in P1, V1. destruct (pos_finite _ _ _ P1) as [_ ->]. destruct (pos_finite _ _ _ P2) as [_ ->]. rewrite (vel_value _ _ _ V1), (vel_value _ _ _ V2). auto.
    + destruct (in_tiles _ _ _ s Tr I) as [I1 _].
      assert (Q : at_time (x :: y :: r) (sub_t0 s) = at_time (y :: r) (sub_t0 s)) by (apply at_tail; lra).
      assert (Ty' : tiles (sub_t1 x) e (y :: r)) by (split; [auto|split; [lra|auto]]).
      destruct (IH (sub_t1 x) e s C Ty' L1 F1 (or_intror I)) as [Q1 Q2].
      rewrite <- Q1, <- Q2. destruct (at_time_some (y :: r) (sub_t0 s) ltac:(discriminate)) as (z & Hz).
      destruct (curve_at _ _ _ Hz) as [-> ->]. apply curve_at. rewrite Q. exact Hz.
Qed.
Lemma chain_drives : forall tr a e, chain (lasting tr) -> tiles a e tr -> Forall finite (lasting tr) -> lasting tr <> [] ->
  drives tr (cpos (lasting tr)) (cvel (lasting tr)).
Proof.
  intros tr a e C T F N. assert (L : Forall (fun s => sub_t0 s < sub_t1 s) (lasting tr)) by (apply Forall_forall; intros x Hx; apply filter_In in Hx; apply Rltb_true; tauto).
  split.
  - apply chain_curve; auto. eapply Forall_impl; [|exact L]. cbn. intros. lra.
  - intros s t I Ls [H1 H2]. assert (Il : In s (lasting tr)) by (apply filter_In; split; auto; apply Rltb_true; auto).
    assert (Fs : finite s) by (rewrite Forall_forall in F; auto). destruct (finite_pos s t Fs) as [-> ->].
    assert (Tl := lasting_tiles _ _ _ T). destruct (Rle_lt_or_eq_dec _ _ H1) as [H|<-].
    + destruct (curve_at (lasting tr) t s) as [-> ->]; auto. eapply at_time_inside; eauto.
    + destruct (chain_start _ _ _ s C Tl L F Il) as [-> ->]. auto.
Qed.
(** The curve is determined by the pieces. *)
Lemma at_time_tiles : forall tr a e t, tiles a e tr -> a < t <= e -> exists s, at_time tr t = Some s /\ In s tr /\ sub_t0 s < t <= sub_t1 s.
Proof.
  induction tr as [|x r IH]; intros a e t T H; [cbn in T; lra|]. destruct T as (T0 & T1 & T2). destruct (Rle_lt_dec t (sub_t1 x)) as [G|G].
  - exists x. rewrite at_head by lra. split; auto. split; [left; auto|lra].
  - destruct r as [|y r]; [cbn in T2; lra|]. destruct (IH _ _ t T2 ltac:(lra)) as (s & S1 & S2 & S3). exists s. rewrite at_tail by lra. split; auto. split; [right; auto|auto].
Qed.

Lemma mine_app : forall b p q, mine b (p ++ q) = mine b p ++ mine b q.
Proof. induction p as [|t p IH]; intros q; [reflexivity|]. cbn. rewrite IH. destruct (Bool.eqb (t_left t) b); reflexivity. Qed.

Section Run.
Variable ops : list gop.
Let g := settings_after ops.
Variables left right : footprint.
Variables init dT : R.
Variable srt : list tstep.
Variable out : genout.
Hypothesis Srt : sort_result (fp_steps left) (fp_steps right) srt.
Hypothesis Gen : generate_phases g left right init dT srt = Ok out.
Hypothesis Nm : named_feet left right.
Variable c : dcfg.
Let ph := go_ph out.
Let pl := planned (go_ord out).
Let m := length pl.
Let steps := map t_step (go_ord out).
Let E := INR (bnd ph (2 * m + 1)) * dT.

(** The two first ordered steps are the first steps of the two feet. *)
Lemma first_two : exists a d, nth_error (go_ord out) 0 = Some a /\ nth_error (go_ord out) 1 = Some d /\ t_idx a = 0%nat /\ t_idx d = 0%nat /\ t_left a <> t_left d.
Proof.
  pose proof (ord_length ops left right init dT srt out Gen) as L. fold pl m in L.
  destruct (run_order g (good_history ops) left right init dT srt out Gen Srt) as [[Nd En] _].
  destruct (C36_swings_match_steps ops left right init dT srt out Srt Gen) as (_ & _ & Hil & Hir & _). fold pl in Hil, Hir.
  destruct (generate_inv _ _ _ _ _ _ _ (good_history ops) Gen) as (l0 & r0 & Hl0 & Hr0 & _).
  assert (Pos : forall t, In t pl -> (1 <= t_idx t)%nat).
  { intros t Ht. assert (I : In (t_idx t) (foot_indices (t_left t) pl)) by (unfold foot_indices; apply in_map_iff; exists t; split; auto; apply filter_In; split; auto; apply Bool.eqb_reflx).
    destruct (t_left t); [rewrite Hil in I|rewrite Hir in I]; apply in_seq in I; lia. }
  assert (At : forall b, exists k t, (k < 2)%nat /\ nth_error (go_ord out) k = Some t /\ t_left t = b /\ t_idx t = 0%nat).
  { intros b. assert (exists f, In (MkT b 0 f) (go_ord out)) as (f & If).
    { exists (if b then l0 else r0). apply En. destruct b; cbn [foot_list]; [destruct (fp_steps left)|destruct (fp_steps right)]; try discriminate; cbn in *; congruence. }
    apply In_nth_error in If. destruct If as (k & Hk). exists k, (MkT b 0 f). repeat split; auto.
    destruct (Nat.lt_ge_cases k 2) as [|G]; auto. exfalso. assert (I : In (MkT b 0 f) pl).
    { apply nth_error_In with (n := (k - 2)%nat). unfold pl. rewrite (planned_nth ops left right init dT srt out Gen). replace (k - 2 + 2)%nat with k by lia. exact Hk. }
    apply Pos in I. cbn in I. lia. }
  destruct (At true) as (k1 & t1 & K1 & N1 & L1 & I1). destruct (At false) as (k2 & t2 & K2 & N2 & L2 & I2).
  assert (k1 <> k2) by (intros ->; congruence). assert (t_left t1 <> t_left t2) by congruence.
  assert ((k1 = 0 /\ k2 = 1) \/ (k1 = 1 /\ k2 = 0))%nat as [[-> ->]|[-> ->]] by lia; [exists t1, t2|exists t2, t1]; repeat split; auto.
Qed.

Variables l0 r0 : step.
Hypothesis Hl0 : hd_error (fp_steps left) = Some l0.
Hypothesis Hr0 : hd_error (fp_steps right) = Some r0.
Hypothesis Alt : alternating (tl (go_ord out)).
Let first (b : bool) := if b then l0 else r0.

(** During the swing to planned step [j] the other foot stands on ordered step [j + 1]. *)
Lemma stance_step : forall j t i, nth_error pl j = Some t -> (bnd ph (2 * j + 1) <= i < bnd ph (2 * j + 2))%nat ->
  exists u, nth_error (go_ord out) (j + 1) = Some u /\ t_left u = negb (t_left t) /\ stands_on (first (t_left u)) pl ph (t_left u) i (t_step u).
Proof.
  intros j t i Hj Hi. pose proof (ord_length ops left right init dT srt out Gen) as L. fold pl m in L.
  assert (Jm : (j < m)%nat) by (apply nth_error_Some; fold pl; congruence).
  destruct (nth_error (go_ord out) (j + 1)) as [u|] eqn:Eu; [|apply nth_error_None in Eu; lia]. exists u. split; auto.
  assert (Lu : t_left u = negb (t_left t)).
  { pose proof (Alt j u t) as A. unfold pl in Hj. rewrite (planned_nth ops left right init dT srt out Gen) in Hj.
    destruct (go_ord out) as [|x q]; [cbn in L; lia|]. replace (j + 1)%nat with (S j) in Eu by lia. replace (j + 2)%nat with (S (S j)) in Hj by lia. cbn in Eu. cbn in Hj. cbn [tl] in A.
    specialize (A Eu). replace (nth_error q (S j)) with (Some t) in A by (symmetry; exact Hj). specialize (A eq_refl). destruct (t_left u), (t_left t); cbn; congruence. }
  split; auto.
  assert (Mo : forall i j, (i <= j <= 2 * m + 1)%nat -> (bnd ph i <= bnd ph j)%nat) by (exact (mono ops left right init dT srt out Gen)).
  assert (Lt : forall k' t', nth_error pl k' = Some t' -> t_left t' = t_left u -> (bnd ph (2 * k' + 2) <= i)%nat -> (k' < j)%nat).
  { intros k' t' Hk' Ht' Hb. destruct (Nat.lt_ge_cases k' j) as [|G]; auto. exfalso. assert ((k' < m)%nat) by (apply nth_error_Some; fold pl; congruence).
    pose proof (Mo (2 * j + 2)%nat (2 * k' + 2)%nat ltac:(lia)). lia. }
  destruct j as [|j].
  - right. split.
    + destruct first_two as (a & d & Ha & Hd & Ia & Id & _). cbn [Nat.add] in Eu. assert (u = d) by congruence. subst u.
      destruct (run_order g (good_history ops) left right init dT srt out Gen Srt) as [[_ En] _]. apply nth_error_In in Hd. destruct d as [bd idd sd]. cbn [t_idx t_left t_step] in *. subst idd. apply En in Hd. unfold first.
      destruct bd; cbn [foot_list] in Hd; [destruct (fp_steps left)|destruct (fp_steps right)]; cbn in *; congruence.
    + intros k' t' Hk' Ht'. destruct (Nat.lt_ge_cases i (bnd ph (2 * k' + 2))) as [|G]; auto. pose proof (Lt _ _ Hk' Ht' G). lia.
  - left. exists j, u. assert (Hu : nth_error pl j = Some u) by (unfold pl; rewrite (planned_nth ops left right init dT srt out Gen); rewrite <- Eu; f_equal; lia).
    split; auto. split; auto. split; [pose proof (Mo (2 * j + 2)%nat (2 * S j + 1)%nat ltac:(lia)); lia|]. split; auto.
    intros k' t' Hk' Ht' Hb. pose proof (Lt _ _ Hk' Ht' Hb). lia.
Qed.

(** At the end, the feet stand on the two last ordered steps. *)
Lemma final_steps : exists u v, nth_error (go_ord out) m = Some u /\ nth_error (go_ord out) (m + 1) = Some v /\ t_left u <> t_left v
  /\ forall w, w = u \/ w = v -> last (foot_list (fp_steps left) (fp_steps right) (t_left w)) (first (t_left w)) = t_step w.
Proof.
  pose proof (ord_length ops left right init dT srt out Gen) as L. fold pl m in L.
  destruct (nth_error (go_ord out) m) as [u|] eqn:Eu; [|apply nth_error_None in Eu; lia].
  destruct (nth_error (go_ord out) (m + 1)) as [v|] eqn:Ev; [|apply nth_error_None in Ev; lia].
  exists u, v. split; auto. split; auto.
  destruct first_two as (a & d & Ha & Hd & Ia & Id & Nab).
  assert (Nuv : t_left u <> t_left v).
  { destruct (Nat.eq_dec m 0) as [Z|Z].
    - rewrite Z in *. cbn [Nat.add] in *. congruence.
    - apply (Alt (m - 1)%nat).
      + destruct (go_ord out) as [|x q]; [cbn in L; lia|]. cbn [tl]. rewrite <- Eu. destruct m; [lia|]. cbn. f_equal. lia.
      + destruct (go_ord out) as [|x q]; [cbn in L; lia|]. cbn [tl]. rewrite <- Ev. replace (m + 1)%nat with (S (S (m - 1))) by lia. reflexivity. }
  split; auto.
  destruct (run_order g (good_history ops) left right init dT srt out Gen Srt) as [[Nd En] Sd].
  assert (K : forall b, t_left u = b \/ t_left v = b) by (intros b; destruct (t_left u), (t_left v), b; auto; congruence).
  assert (Ml : forall b, foot_list (fp_steps left) (fp_steps right) b = first b :: mine b pl).
  { intros b. rewrite (mine_all ops left right init dT srt out Srt Gen b (first b)) by (destruct b; auto). fold pl. rewrite app_nil_r. reflexivity. }
  assert (LastOf : forall q (w : tstep) q' f, q = q' ++ [w] -> last (f :: mine (t_left w) q) f = t_step w).
  { intros q w q' f ->. rewrite mine_app. cbn [mine]. rewrite Bool.eqb_reflx. rewrite app_comm_cons, last_last. reflexivity. }
  assert (LastOf2 : forall q (w x : tstep) q' f, q = q' ++ [w; x] -> t_left w <> t_left x -> last (f :: mine (t_left w) q) f = t_step w).
  { intros q w x q' f -> N. rewrite mine_app. cbn [mine]. rewrite Bool.eqb_reflx. destruct (Bool.eqb (t_left x) (t_left w)) eqn:Q; [apply Bool.eqb_prop in Q; congruence|].
    rewrite app_comm_cons, last_last. reflexivity. }
  assert (F0 : forall t, nth_error (go_ord out) 0 = Some t \/ nth_error (go_ord out) 1 = Some t -> t_step t = first (t_left t)).
  { intros t Ht. assert (It : t_idx t = 0%nat) by (destruct Ht; congruence). assert (In t (go_ord out)) by (destruct Ht as [H|H]; eapply nth_error_In; eauto).
    destruct t as [bt idt st]. cbn [t_idx t_left t_step] in *. subst idt. apply En in H. unfold first. destruct bt; cbn [foot_list] in H; [destruct (fp_steps left)|destruct (fp_steps right)]; cbn in *; congruence. }
  intros w Hw. rewrite Ml.
  assert (Ep : pl = skipn 2 (go_ord out)) by (unfold pl, planned; destruct (go_ord out) as [|? [|? ?]]; reflexivity).
  destruct m as [|[|n]] eqn:Em.
  - assert (pl = []) by (apply length_zero_iff_nil; unfold m in Em; exact Em). rewrite H. cbn. symmetry. apply F0. cbn [Nat.add] in *. destruct Hw as [->| ->]; auto.
  - assert (Epl : pl = [v]).
    { pose proof (planned_nth ops left right init dT srt out Gen 0) as Q. fold pl in Q. cbn [Nat.add] in Q, Ev. rewrite Ev in Q. unfold m in Em. clearbody pl. destruct pl as [|p [|p' r]]; cbn in *; try discriminate. congruence. }
    rewrite Epl. destruct Hw as [->| ->].
    + cbn [mine]. destruct (Bool.eqb (t_left v) (t_left u)) eqn:Q; [apply Bool.eqb_prop in Q; congruence|]. cbn. symmetry. apply F0. auto.
    + apply (LastOf [v] v []). reflexivity.
  - assert (Hv : nth_error pl (S n) = Some v) by (unfold pl; rewrite (planned_nth ops left right init dT srt out Gen); rewrite <- Ev; f_equal; lia).
    assert (Hu : nth_error pl n = Some u) by (unfold pl; rewrite (planned_nth ops left right init dT srt out Gen); rewrite <- Eu; f_equal; lia).
    assert (exists q', pl = q' ++ [u; v]) as (q' & Eq).
    { exists (firstn n pl). rewrite <- (firstn_skipn n pl) at 1. f_equal. apply skipn_cons in Hu. apply skipn_cons in Hv. rewrite Hu, Hv. f_equal. f_equal. apply skipn_all2. unfold m in Em. lia. }
    destruct Hw as [->| ->]; [eapply LastOf2; eauto|]. apply (LastOf pl v (q' ++ [u])). rewrite Eq, <- app_assoc. reflexivity.
Qed.
End Run.
