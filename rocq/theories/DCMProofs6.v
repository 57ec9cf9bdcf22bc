(** Runs used as examples for the DCM trajectories. *)
From Coq Require Import String Reals Lra Lia ZArith List Bool Sorting.Sorted Sorting.Permutation.
From Verif Require Import Prelude EvalTac Rounding FootPrint GenPhases GenSpec GenProofs GenProofs2 GenProofs3 GenProofs4 Properties_Generator
  FeetTraj FeetSpec ZMP ZMPSpec DCM DCMSpec DCMProofs DCMProofs2 DCMProofs3 DCMProofs4 DCMProofs5.
Import ListNotations.
Open Scope R_scope.
Notation Forall := List.Forall.

(** A step of 0.2 m with the right foot. *)
Definition sL0 : step := MkStep (V2 0 (1/10)) 0 0 "left".
Definition sR0 : step := MkStep (V2 0 (-1/10)) 0 0 "right".
Definition sR1 : step := MkStep (V2 (2/10) (-1/10)) 0 4 "right".
Definition lrL : footprint := MkFP [sL0] "left".
Definition lrR : footprint := MkFP [sR0; sR1] "right".
Definition lrSrt : list tstep := [MkT true 0 sL0; MkT false 0 sR0; MkT false 1 sR1].
Definition lrOrd : list tstep := [MkT false 0 sR0; MkT true 0 sL0; MkT false 1 sR1].
Lemma lr_sort : sort_result (fp_steps lrL) (fp_steps lrR) lrSrt.
Proof.
  split; [apply Permutation_refl|].
  repeat (constructor; [|repeat constructor; unfold tle; simpl; lra]). constructor.
Qed.
Lemma lr_order : order_steps lrSrt = Ok lrOrd.
Proof. unfold order_steps, lrSrt. cbn -[Reqb]. rewrite (reqb_t 0 0) by lra. reflexivity. Qed.
Lemma lr_named : named_feet lrL lrR.
Proof. split; cbn; intros s H; repeat (destruct H as [<-|H]; [reflexivity|]); destruct H. Qed.

(** One step with the right foot. *)
Lemma gen3 : forall g l0 r0 r1 x y srt dT tot sw en, 0 < dT -> st_time l0 <= 0 -> st_time r0 <= 0 -> 0 <= st_time r1 -> 0 <= g_endSwitch g ->
  order_steps srt = Ok [x; y; MkT false 1 r1] ->
  let w := switch_time g (g_nomStep g - g_switchPct g * g_nomStep g) true (Reqb (st_time l0) (st_time r0)) (st_time r1 - 0) in
  0 <= w -> INR tot - / 2 <= st_time r1 / dT < INR tot + / 2 -> INR sw - / 2 <= w / dT < INR sw + / 2 ->
  INR en - / 2 <= g_endSwitch g / dT < INR en + / 2 -> (sw <= tot)%nat -> (1 <= tot)%nat ->
  exists out, generate_phases g (MkFP [l0] "left") (MkFP [r0; r1] "right") 0 dT srt = Ok out
  /\ go_ord out = [x; y; MkT false 1 r1]
  /\ ph_shift (go_ph out) = [0%nat; sw; (sw + (tot - sw))%nat; (sw + (tot - sw) + en)%nat]
  /\ ph_right (go_ph out) = (repeat SwitchOut sw ++ repeat Swing (tot - sw)) ++ repeat SwitchIn en
  /\ ph_left (go_ph out) = (repeat SwitchIn sw ++ repeat Stance (tot - sw)) ++ repeat SwitchOut en.
Proof.
  intros g l0 r0 r1 x y srt dT tot sw en Hd Hl Hr HT He Eo w Hw Ht Hs Hn Hle H1. assert (D : forall z, 0 <= z -> 0 <= z / dT) by (intros z Hz; apply Rmult_le_pos; [lra|apply Rlt_le, Rinv_0_lt_compat; lra]).
  unfold generate_phases. cbn -[Rltb Rleb Rmax order_steps create_phases Reqb repeat].
  rewrite (rleb_f dT 0) by lra. rewrite (rltb_f 0 (Rmax _ _)) by (apply Rmax_lub; lra).
  rewrite Eo. cbn [rbind]. unfold create_phases. cbn [last hd t_step].
  match goal with |- context [size_ceil ?x] => destruct (size_ceil_nonneg x) as (n & ->) end.
  { apply Rlt_le_trans with 0; [lra|]. apply D. lra. }
  cbn [rbind cp_loop].
  unfold cp_step. cbn [c_prev t_step t_left t_idx c_li c_ri c_cur c_lp c_rp c_shift c_merge c_ub Nat.eqb].
  rewrite (rltb_f (st_time r1 - 0) 0) by lra. fold w.
  rewrite (size_round_imp ((st_time r1 - 0) / dT) tot) by (rewrite ?Rminus_0_r; auto). cbn [rbind].
  rewrite (size_round_imp (w / dT) sw) by auto. cbn [rbind].
  rewrite sub_size_le by lia. cbn [rbind]. cbn -[size_round repeat].
  rewrite (size_round_imp (g_endSwitch g / dT) en) by auto. cbn [rbind].
  rewrite sub_size_le by lia. cbn [rbind]. eexists; split; [reflexivity|]. cbn [go_ord go_ph ph_shift ph_right ph_left app]. auto.
Qed.
Lemma lr_gen : forall pct e dT tot sw en, 0 < dT -> 0 <= e -> 0 <= pct ->
  INR tot - / 2 <= 4 / dT < INR tot + / 2 -> INR sw - / 2 <= pct * 4 / dT < INR sw + / 2 -> INR en - / 2 <= e / dT < INR en + / 2 -> (sw <= tot)%nat -> (1 <= tot)%nat ->
  exists out, generate_phases (MkG pct e 10 2 true (1/2) (1/2)) lrL lrR 0 dT lrSrt = Ok out
  /\ go_ord out = lrOrd
  /\ ph_shift (go_ph out) = [0%nat; sw; (sw + (tot - sw))%nat; (sw + (tot - sw) + en)%nat]
  /\ ph_right (go_ph out) = (repeat SwitchOut sw ++ repeat Swing (tot - sw)) ++ repeat SwitchIn en
  /\ ph_left (go_ph out) = (repeat SwitchIn sw ++ repeat Stance (tot - sw)) ++ repeat SwitchOut en.
Proof.
  intros pct e dT tot sw en Hd He Hp Ht Hs Hn Hl H1.
  assert (W : switch_time (MkG pct e 10 2 true (1/2) (1/2)) (2 - pct * 2) true (Reqb (st_time sL0) (st_time sR0)) (st_time sR1 - 0) = pct * 4).
  { unfold switch_time. cbn [sL0 sR0 sR1 st_time g_pause g_switchPct g_maxStep]. rewrite (reqb_t 0 0) by lra. rewrite (rgtb_f (4 - 0) 10) by lra. cbn [negb andb]. ring. }
  apply (gen3 (MkG pct e 10 2 true (1/2) (1/2)) sL0 sR0 sR1); auto; cbn [g_nomStep g_switchPct g_endSwitch]; try (rewrite W); try (cbn; lra); auto using lr_order.
Qed.

(** Default settings, half a second per sample. *)
Lemma lr_run : exists out, generate_phases (settings_after []) lrL lrR 0 (1/2) lrSrt = Ok out
  /\ go_ord out = lrOrd /\ ph_shift (go_ph out) = [0%nat; 4%nat; 8%nat; 10%nat]
  /\ ph_left (go_ph out) = [SwitchIn; SwitchIn; SwitchIn; SwitchIn; Stance; Stance; Stance; Stance; SwitchOut; SwitchOut].
Proof.
  destruct (lr_gen (1/2) 1 (1/2) 8 4 2) as (out & G & O & S & _ & P); try (cbn; lra); try lia.
  exists out. repeat split; auto.
Qed.
Lemma lr_no_empty : forall ph a b c, ph_shift ph = [0%nat; a; b; c] -> (0 < a < b)%nat -> (b < c)%nat -> no_empty_phase ph.
Proof.
  intros ph a b c E H1 H2 i x y Ha Hb. rewrite E in *. destruct i as [|[|[|i]]]; cbn in *; try (injection Ha as <-; injection Hb as <-; lia).
  destruct i; discriminate.
Qed.
(** Terminal switch of four seconds, one second per sample. *)
Lemma lr_short : exists out, generate_phases (settings_after [GoTerminal 4]) lrL lrR 0 1 lrSrt = Ok out
  /\ go_ord out = lrOrd /\ ph_shift (go_ph out) = [0%nat; 2%nat; 4%nat; 8%nat]
  /\ ph_left (go_ph out) = [SwitchIn; SwitchIn; Stance; Stance; SwitchOut; SwitchOut; SwitchOut; SwitchOut].
Proof.
  assert (E : settings_after [GoTerminal 4] = MkG (1/2) 4 10 2 true (1/2) (1/2)) by (unfold settings_after; cbn; unfold set_terminalSwitch; rewrite rleb_f by lra; reflexivity).
  rewrite E. destruct (lr_gen (1/2) 4 1 4 2 4) as (out & G & O & S & _ & P); try (cbn; lra); try lia.
  exists out. repeat split; auto.
Qed.

(** The pieces of such a run. *)
Lemma lr_build : forall c Z dT a b e l0 lph p0 v0, 0 < dT -> 0 < dc_om c -> (a <= b)%nat -> (b <= e)%nat -> dc_still c <= 1 -> 0 <= dc_still c -> ds_pauses Z (INR a * dT - 0) = false ->
  dc_offL c = vzero -> dc_offR c = vzero ->
  let bp := vadd (vscale (1 - dc_last c) (st_pos sL0)) (vscale (dc_last c) (st_pos sR1)) in
  let s := MkSS (INR a * dT) (INR b * dT) (dc_om c) (st_pos sL0) (INR b * dT) bp in
  let tm := INR b * dT + (INR e * dT - INR b * dT) * (1 - dc_still c) in let fin := mid (st_pos sR1) (st_pos sL0) in
  exists x d f, build c Z dT (map t_step lrOrd) [0%nat; a; b; e] (l0 :: lph) p0 v0 = Ok [x; SubS s; d; f]
  /\ mk_first c (MkD 0 p0 v0) (MkD (INR a * dT) (ss_pos s (INR a * dT)) (ss_vel s (INR a * dT))) = Ok x
  /\ mk_3 (MkD (INR b * dT) bp (ss_vel s (INR b * dT))) (MkD tm fin vzero) (dc_om c) = Ok d
  /\ mk_3 (MkD tm fin vzero) (MkD (INR e * dT) fin vzero) (dc_om c) = Ok f.
Proof.
  intros c Z dT a b e l0 lph p0 v0 Hd Ho Hab Hbe Hs1 Hs0 Hp EL ER bp s tm fin.
  assert (A0 : 0 <= INR a * dT) by (apply Rmult_le_pos; [apply pos_INR|lra]).
  assert (Ab : INR a * dT <= INR b * dT) by (apply Rmult_le_compat_r; [lra|apply le_INR; auto]).
  assert (Be : INR b * dT <= INR e * dT) by (apply Rmult_le_compat_r; [lra|apply le_INR; auto]).
  assert (Zl : zmp_at c sL0 = Ok (st_pos sL0)) by (unfold zmp_at; cbn; rewrite EL; f_equal; apply vec2_ext; cbn; ring).
  assert (Zr : zmp_at c sR1 = Ok (st_pos sR1)) by (unfold zmp_at; cbn; rewrite ER; f_equal; apply vec2_ext; cbn; ring).
  assert (Dom : forall A u w t (q : A), u <= t <= w -> checked u w t (dT / 2) q = Ok q).
  { intros A u w t q H. unfold checked, in_domain, Rgeb. rewrite !(proj2 (Rleb_true _ _)) by lra. reflexivity. }
  destruct (mk_3 (MkD tm fin vzero) (MkD (INR e * dT) fin vzero) (dc_om c)) as [f| |] eqn:Ef;
    [|unfold mk_3 in Ef; rewrite (proj2 (asserted_true _ _ _)) in Ef by (split; [cbn; unfold tm; nra|auto]); discriminate..].
  destruct (mk_3 (MkD (INR b * dT) bp (ss_vel s (INR b * dT))) (MkD tm fin vzero) (dc_om c)) as [d| |] eqn:Ed;
    [|unfold mk_3 in Ed; rewrite (proj2 (asserted_true _ _ _)) in Ed by (split; [cbn; unfold tm; nra|auto]); discriminate..].
  destruct (mk_first c (MkD 0 p0 v0) (MkD (INR a * dT) (ss_pos s (INR a * dT)) (ss_vel s (INR a * dT)))) as [x| |] eqn:Ex;
    [|unfold mk_first, mk_3, mk_5 in Ex; rewrite (proj2 (asserted_true _ _ _)) in Ex by (split; [cbn; lra|auto]); destruct (dc_five c); discriminate..].
  exists x, d, f. split; [|auto].
  unfold build, shift_at, step_at, lrOrd. cbn [map t_step length Nat.ltb Nat.leb sub_size Nat.sub rbind nth_error]. rewrite Zr, Zl. cbn [rbind].
  unfold add_last, mk_ss. cbn [d_t d_p]. rewrite (proj2 (asserted_true _ _ _)) by lra. cbn [rbind ss_t0 ss_t1]. fold bp. fold s. fold fin.
  rewrite Dom by lra. cbn [rbind]. fold tm. rewrite Ef. cbn [rbind]. rewrite Ed. cbn [rbind build_loop].
  unfold add_first. cbn [next_ss rbind d_t ss_t0 ss_t1 s]. fold s. rewrite !Dom by lra. cbn [rbind]. rewrite Hp. rewrite Ex. reflexivity.
Qed.

Lemma ev_stay : forall n i s r t, INR i * 1 = t -> t <= sub_t1 s -> sub_t0 s <= t -> eval_loop 1 (S n) i (s :: r) = do rest <- eval_loop 1 n (S i) (s :: r); Ok (sample_of s t :: rest).
Proof. intros n i s r t Et H1 H2. cbn [eval_loop]. rewrite Et. rewrite (rgtb_f t) by lra. unfold checked, in_domain, Rgeb. rewrite !(proj2 (Rleb_true _ _)) by lra. reflexivity. Qed.
Lemma ev_next : forall n i s s' r t, INR i * 1 = t -> sub_t1 s < t -> sub_t0 s' - 1 / 2 <= t <= sub_t1 s' + 1 / 2 -> eval_loop 1 (S n) i (s :: s' :: r) = do rest <- eval_loop 1 n (S i) (s' :: r); Ok (sample_of s' t :: rest).
Proof. intros n i s s' r t Et H1 H2. cbn [eval_loop]. rewrite Et. rewrite (rgtb_t t) by lra. unfold checked, in_domain, Rgeb. rewrite !(proj2 (Rleb_true _ _)) by lra. reflexivity. Qed.
Lemma ev_stop : forall n i s s' r t, INR i * 1 = t -> sub_t1 s < t -> sub_t1 s' + 1 / 2 < t -> eval_loop 1 (S n) i (s :: s' :: r) = Fail.
Proof. intros n i s s' r t Et H1 H2. cbn [eval_loop]. rewrite Et. rewrite (rgtb_t t) by lra. unfold checked, in_domain, Rgeb. rewrite (proj2 (Rleb_false t _)) by lra. rewrite andb_false_r. reflexivity. Qed.
Lemma lr_eval : forall x y d f, sub_t0 x = 0 -> sub_t1 x = 2 -> sub_t0 y = 2 -> sub_t1 y = 4 -> sub_t0 d = 4 -> sub_t1 d = 9/2 -> sub_t0 f = 9/2 -> sub_t1 f = 8 ->
  evaluate 1 [0%nat; 2%nat; 4%nat; 8%nat] [x; y; d; f]
  = Ok [sample_of x 0; sample_of x 1; sample_of x 2; sample_of y 3; sample_of y 4; sample_of d 5; sample_of f 6; sample_of f 7].
Proof.
  intros x y d f X0 X1 Y0 Y1 D0 D1 F0 F1. unfold evaluate, sub_size. cbn [last Nat.leb Nat.sub rbind].
  rewrite (ev_stay _ _ _ _ 0) by (cbn; lra). rewrite (ev_stay _ _ _ _ 1) by (cbn; lra). rewrite (ev_stay _ _ _ _ 2) by (cbn; lra).
  rewrite (ev_next _ _ _ _ _ 3) by (cbn; lra). rewrite (ev_stay _ _ _ _ 4) by (cbn; lra). rewrite (ev_next _ _ _ _ _ 5) by (cbn; lra).
  rewrite (ev_next _ _ _ _ _ 6) by (cbn; lra). rewrite (ev_stay _ _ _ _ 7) by (cbn; lra). reflexivity.
Qed.

(** The right foot lands twenty seconds later: a pause. *)
Definition sR20 : step := MkStep (V2 (2/10) (-1/10)) 0 20 "right".
Definition paR : footprint := MkFP [sR0; sR20] "right".
Definition paSrt : list tstep := [MkT true 0 sL0; MkT false 0 sR0; MkT false 1 sR20].
Lemma pa_run : exists out, generate_phases (settings_after []) lrL paR 0 (1/2) paSrt = Ok out /\ sort_result (fp_steps lrL) (fp_steps paR) paSrt /\ named_feet lrL paR
  /\ go_ord out = [MkT false 0 sR0; MkT true 0 sL0; MkT false 1 sR20] /\ ph_shift (go_ph out) = [0%nat; 38%nat; 40%nat; 42%nat].
Proof.
  assert (W : switch_time (settings_after []) (g_nomStep (settings_after []) - g_switchPct (settings_after []) * g_nomStep (settings_after [])) true (Reqb (st_time sL0) (st_time sR0)) (st_time sR20 - 0) = 19).
  { unfold switch_time, settings_after. cbn [fold_left gset_new sL0 sR0 sR20 st_time g_pause g_switchPct g_maxStep g_nomStep]. rewrite (reqb_t 0 0) by lra. rewrite (rgtb_t (20 - 0) 10) by lra. cbn [negb andb]. field. }
  destruct (gen3 (settings_after []) sL0 sR0 sR20 (MkT false 0 sR0) (MkT true 0 sL0) paSrt (1/2) 40 38 2) as (out & G & O & S & _); try (rewrite W); try (cbn; lra); try lia.
  { unfold order_steps, paSrt. cbn -[Reqb]. rewrite (reqb_t 0 0) by lra. reflexivity. }
  exists out. split; [exact G|]. split.
  - split; [apply Permutation_refl|]. repeat (constructor; [|repeat constructor; unfold tle; simpl; lra]). constructor.
  - split; [|auto]. split; cbn; intros s H; repeat (destruct H as [<-|H]; [reflexivity|]); destruct H.
Qed.

(** The left foot landed first, the right foot last; the right foot makes the next step. *)
Definition sLm : step := MkStep (V2 0 (1/10)) 0 (-1) "left".
Definition twL : footprint := MkFP [sLm] "left".
Definition twSrt : list tstep := [MkT true 0 sLm; MkT false 0 sR0; MkT false 1 sR1].
Lemma tw_run : exists out, generate_phases (settings_after []) twL lrR 0 (1/2) twSrt = Ok out /\ sort_result (fp_steps twL) (fp_steps lrR) twSrt /\ named_feet twL lrR
  /\ go_ord out = twSrt /\ ph_shift (go_ph out) = [0%nat; 3%nat; 8%nat; 10%nat]
  /\ ph_left (go_ph out) = [SwitchIn; SwitchIn; SwitchIn; Stance; Stance; Stance; Stance; Stance; SwitchOut; SwitchOut].
Proof.
  assert (W : switch_time (settings_after []) (g_nomStep (settings_after []) - g_switchPct (settings_after []) * g_nomStep (settings_after [])) true (Reqb (st_time sLm) (st_time sR0)) (st_time sR1 - 0) = 4 / 3).
  { unfold switch_time, settings_after. cbn [fold_left gset_new sLm sR0 sR1 st_time g_pause g_switchPct g_maxStep g_nomStep]. rewrite (proj2 (Reqb_false (-1) 0)) by lra. cbn [negb andb]. field. }
  destruct (gen3 (settings_after []) sLm sR0 sR1 (MkT true 0 sLm) (MkT false 0 sR0) twSrt (1/2) 8 3 2) as (out & G & O & S & _ & P); try (rewrite W); try (cbn; lra); try lia.
  { unfold order_steps, twSrt. cbn -[Reqb]. rewrite (proj2 (Reqb_false (-1) 0)) by lra. reflexivity. }
  exists out. split; [exact G|]. split.
  - split; [apply Permutation_refl|]. repeat (constructor; [|repeat constructor; unfold tle; simpl; lra]). constructor.
  - split; [|auto]. split; cbn; intros s H; repeat (destruct H as [<-|H]; [reflexivity|]); destruct H.
Qed.

(** Two steps, the right foot first. *)
Definition sL1 : step := MkStep (V2 (2/5) (1/10)) 0 8 "left".
Definition twoL : footprint := MkFP [sL0; sL1] "left".
Definition twoSrt : list tstep := [MkT true 0 sL0; MkT false 0 sR0; MkT false 1 sR1; MkT true 1 sL1].
Definition twoOrd : list tstep := [MkT false 0 sR0; MkT true 0 sL0; MkT false 1 sR1; MkT true 1 sL1].
Lemma two_run : exists out, generate_phases (settings_after []) twoL lrR 0 (1/2) twoSrt = Ok out /\ sort_result (fp_steps twoL) (fp_steps lrR) twoSrt /\ named_feet twoL lrR
  /\ go_ord out = twoOrd /\ ph_shift (go_ph out) = [0%nat; 4%nat; 8%nat; 12%nat; 16%nat; 18%nat].
Proof.
  assert (G : exists out, generate_phases (settings_after []) twoL lrR 0 (1/2) twoSrt = Ok out /\ go_ord out = twoOrd /\ ph_shift (go_ph out) = [0%nat; 4%nat; 8%nat; 12%nat; 16%nat; 18%nat]).
  { unfold generate_phases. cbn -[Rltb Rleb Rmax order_steps create_phases Reqb gset_new].
    rewrite (rleb_f (1/2) 0) by lra. rewrite (rltb_f 0 (Rmax _ _)) by (apply Rmax_lub; lra).
    assert (O : order_steps twoSrt = Ok twoOrd).
    { unfold order_steps, twoSrt. cbn -[Reqb]. rewrite (reqb_f 4 8) by lra. rewrite (reqb_t 0 0) by lra. reflexivity. }
    rewrite O. cbn [rbind]. unfold create_phases, twoOrd. cbn [last hd t_step sL0 sR0 sR1 sL1 st_time].
    unfold settings_after, gset_new. cbn [fold_left g_switchPct g_endSwitch g_maxStep g_nomStep g_pause g_mrBegin g_mrEnd].
    match goal with |- context [size_ceil ?x] => destruct (size_ceil_nonneg x) as (n & ->); [lra|] end. cbn [rbind cp_loop].
    unfold cp_step at 1. cbn [c_prev t_step sL0 sR0 sR1 sL1 st_time t_left t_idx c_li c_ri c_cur c_lp c_rp c_shift c_merge c_ub Nat.eqb].
    rewrite (rltb_f (4 - 0) 0) by lra.
    unfold switch_time at 1. cbn [g_switchPct g_endSwitch g_maxStep g_nomStep g_pause].
    rewrite (reqb_t 0 0) by lra. rewrite (rgtb_f (4 - 0) 10) by lra. cbn [negb andb].
    rewrite (size_round_imp ((4 - 0) / (1/2)) 8) by (simpl; lra). cbn [rbind].
    rewrite (size_round_imp (1/2 * (4 - 0) / (1/2)) 4) by (simpl; lra). cbn -[size_round cp_step repeat INR].
    unfold cp_step at 1. cbn [c_prev t_step sL0 sR0 sR1 sL1 st_time t_left t_idx c_li c_ri c_cur c_lp c_rp c_shift c_merge c_ub Nat.eqb].
    assert (E8 : 8 - (0 + INR 8 * (1 / 2)) = 4) by (simpl; lra). rewrite E8.
    rewrite (rltb_f 4 0) by lra.
    unfold switch_time. cbn [g_switchPct g_endSwitch g_maxStep g_nomStep g_pause g_mrBegin g_mrEnd].
    rewrite (rgtb_f 4 10) by lra. cbn [negb andb].
    rewrite (size_round_imp (4 / (1/2)) 8) by (simpl; lra). cbn [rbind].
    rewrite (size_round_imp (1/2 * 4 / (1/2)) 4) by (simpl; lra). cbn -[size_round repeat INR].
    rewrite (size_round_imp (1/2 * 4 * (1 - 1/2) / (1/2)) 2) by (simpl; lra). cbn -[size_round repeat INR].
    rewrite (size_round_imp (1/(1/2)) 2) by (simpl; lra). cbn -[repeat INR].
    eexists; split; [reflexivity|]. split; reflexivity. }
  destruct G as (out & G & O & P). exists out. split; [exact G|]. split.
  - split.
    + unfold twoSrt, twoL, lrR, all_steps. simpl. apply perm_skip. apply Permutation_sym. apply (Permutation_cons_app [_; _] []). simpl. apply Permutation_refl.
    + repeat (constructor; [|repeat constructor; unfold tle; simpl; lra]). constructor.
  - split; [|auto]. split; cbn; intros s H; repeat (destruct H as [<-|H]; [reflexivity|]); destruct H.
Qed.

(** One step backwards in the world, feet turned by [PI]. *)
Definition bL0 : step := MkStep (V2 0 (-1/10)) PI 0 "left".
Definition bR0 : step := MkStep (V2 0 (1/10)) PI 0 "right".
Definition bR1 : step := MkStep (V2 (-2/10) (1/10)) PI 4 "right".
Definition bkL : footprint := MkFP [bL0] "left".
Definition bkR : footprint := MkFP [bR0; bR1] "right".
Definition bkSrt : list tstep := [MkT true 0 bL0; MkT false 0 bR0; MkT false 1 bR1].
Definition bkOrd : list tstep := [MkT false 0 bR0; MkT true 0 bL0; MkT false 1 bR1].
Lemma back_run : exists out, generate_phases (settings_after []) bkL bkR 0 (1/2) bkSrt = Ok out /\ sort_result (fp_steps bkL) (fp_steps bkR) bkSrt /\ named_feet bkL bkR
  /\ go_ord out = bkOrd /\ ph_shift (go_ph out) = [0%nat; 4%nat; 8%nat; 10%nat]
  /\ ph_left (go_ph out) = [SwitchIn; SwitchIn; SwitchIn; SwitchIn; Stance; Stance; Stance; Stance; SwitchOut; SwitchOut].
Proof.
  assert (W : switch_time (settings_after []) (g_nomStep (settings_after []) - g_switchPct (settings_after []) * g_nomStep (settings_after [])) true (Reqb (st_time bL0) (st_time bR0)) (st_time bR1 - 0) = 2).
  { unfold switch_time, settings_after. cbn [fold_left gset_new bL0 bR0 bR1 st_time g_pause g_switchPct g_maxStep g_nomStep]. rewrite (reqb_t 0 0) by lra. rewrite (rgtb_f (4 - 0) 10) by lra. cbn [negb andb]. field. }
  destruct (gen3 (settings_after []) bL0 bR0 bR1 (MkT false 0 bR0) (MkT true 0 bL0) bkSrt (1/2) 8 4 2) as (out & G & O & S & _ & P); try (rewrite W); try (cbn; lra); try lia.
  { unfold order_steps, bkSrt. cbn -[Reqb]. rewrite (reqb_t 0 0) by lra. reflexivity. }
  exists out. split; [exact G|]. split.
  - split; [apply Permutation_refl|]. repeat (constructor; [|repeat constructor; unfold tle; simpl; lra]). constructor.
  - split; [|auto]. split; cbn; intros s H; repeat (destruct H as [<-|H]; [reflexivity|]); destruct H.
Qed.
