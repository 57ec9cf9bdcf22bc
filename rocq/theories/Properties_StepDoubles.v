(** C105: the steps of a plan in doubles. *)
From Coq Require Import String Reals ZArith List Bool Lia Lra.
From Flocq Require Import Core IEEE754.BinarySingleNaN.
From Verif Require Import Prelude FootPrint UnicycleFoot Ellipse Optimization PlannerSearch Planner RoundedGen RoundedGenProofs2 RoundedGenProofs3
  EvalTac Doubles DoublesSpec DoublesProofs CtrlDoubles NavDoublesSpec TimedPlan TimedPlanSpec TimedPlanProofs
  StepDoubles StepDoublesSpec StepDoublesProofs StepDoublesProofs2 StepDoublesProofs3 StepDoublesProofs4 StepDoublesProofs5 Properties_TimedPlan.
Import ListNotations.
Open Scope R_scope.

(** The instance with exact reals is the model of computeNewSteps used by C26 to C31 and C74. *)
Theorem C105_exact_model : forall c e fuel lfp rfp init tend,
  t_plan reals (exact_cfg c init tend) (exact_steps c e init tend lfp rfp) fuel (map exact_step (fp_steps lfp)) (map exact_step (fp_steps rfp)) =
  match compute_new_steps c e fuel lfp rfp init tend with
  | PDone l r sw sl => TDone (map exact_step (fp_steps (ft_fp l))) (map exact_step (fp_steps (ft_fp r))) sw sl
  | PFail => TFail
  | PUB => TUB
  | PFuel => TFuel
  end.
Proof.
  intros c e fuel lfp rfp init tend. rewrite C86_exact_model.
  assert (E : forall l, map exact_step l = map (on_step R pose (dpose R) exact_pose) (map split_step l)) by (intros l; rewrite map_map; apply map_ext; intros [p a tm f]; reflexivity).
  assert (E2 : forall l : tfoot R pose, map exact_step (map join_step l) = map (on_step R pose (dpose R) exact_pose) l) by (intros l; rewrite map_map; apply map_ext; intros [[[p a] f] tm]; reflexivity).
  rewrite (E (fp_steps lfp)), (E (fp_steps rfp)), steps_exact. destruct (t_plan reals _ (exact_geo c e init tend lfp rfp) fuel _ _) as [l r sw sl| | |]; try reflexivity.
  cbn [on_plan]. rewrite <- !E2. reflexivity.
Qed.
Print Assumptions C105_exact_model.

(** Whatever the answers about positions, the times and the settings are: the feet of a plan are the feet at the start of the
    search and, in turns, steps that were examined and accepted or that are next to the other foot, and at most two at the end. *)
Theorem C105_every_step_examined : forall P (c : tcfg f64) (o : geo f64 P) n left right left' right' sw' sl,
  t_plan ieee c o n left right = TDone left' right' sw' sl ->
  exists l r (sw : bool) prev a b l1 r1 l2 r2,
  begun (c_init c) (o_first o) left right l r
  /\ last_opt (if sw then r else l) = Some prev
  /\ chained (fun sw l r prev x => sampled c o sw l r prev x \/ paralleled c o sw l r prev x) sw l r prev a l1 r1
  /\ terminated c o (turn sw a) l1 r1 (last a prev) b l2 r2 /\ last_opt (if turn sw a then r1 else l1) = Some (last a prev) /\ sw' = turn sw a
  /\ (a ++ b <> [] -> left' = l2 /\ right' = r2).
Proof. intros P c o. apply plan_chained. Qed.
Print Assumptions C105_every_step_examined.

(** An accepted position is finite and within the limits up to rounding, and it passed the test of the ellipse: no NaN or
    infinity of the trajectory is ever accepted. *)
Theorem C105_accepted : forall sq cosf sinf at2 S back free (sw flip : bool) prev u dt, let M := ieee_maths sq cosf sinf at2 in
  close_trig cosf sinf -> close_square sq -> fin (S q_maxLen) = true -> fin (S q_minWidth) = true -> fin (S q_maxAngle) = true ->
  let h := g_heading ieee S (negb sw) prev in
  k_ok ieee M (prob_of S back free) (g_point ieee M S sw prev u (a_abs ieee (if flip then fsub (d_th u) h else fsub h (d_th u))) dt) = true ->
  limited S (if back then Some (S q_maxBack) else None) sw prev u (g_pose ieee M S sw u) /\ k_inside ieee M free (spot (g_pose ieee M S sw u)) = true.
Proof.
  intros sq cosf sinf at2 S back free sw flip prev u dt M trig squ Fl Fw Fa h H.
  exact (accepted_within sq cosf sinf at2 trig squ S (S q_maxLen) (S q_minWidth) (S q_maxAngle) (prob_of S back free) eq_refl eq_refl eq_refl Fl Fw Fa sw flip prev u dt H).
Qed.
Print Assumptions C105_accepted.

(** C105: the steps of a plan. *)
Theorem C105_plan : forall sq cosf sinf at2 S (c : tcfg f64) (back : bool) free sol first checks integ point lateral n left right left' right' sw' sl,
  let M := ieee_maths sq cosf sinf at2 in let bk := if back then Some (S q_maxBack) else None in
  close_trig cosf sinf -> close_square sq -> fin (S q_maxLen) = true -> fin (S q_minWidth) = true -> fin (S q_maxAngle) = true ->
  t_plan ieee c (step_geo ieee M S (prob_of S back free) sol first (c_end c) checks integ point lateral) n left right = TDone left' right' sw' sl ->
  exists l r (sw : bool) prev a b l1 r1 l2 r2,
  begun (c_init c) (fun b => g_pose ieee M S b first) left right l r
  /\ last_opt (if sw then r else l) = Some prev
  /\ chained (fun sw l r prev x => searched S bk c sol sw prev x) sw l r prev a l1 r1
  /\ settled S bk c sol sw' l1 r1 (last a prev) b l2 r2 /\ last_opt (if sw' then r1 else l1) = Some (last a prev)
  /\ (a ++ b <> [] -> left' = l2 /\ right' = r2).
Proof. intros sq cosf sinf at2 S c back free sol first checks integ point lateral n left right left' right' sw' sl M bk trig squ Fl Fw Fa H. exact (plan_limited sq cosf sinf at2 trig squ S Fl Fw Fa c back free sol first checks integ point lateral n left right left' right' sw' sl H). Qed.
Print Assumptions C105_plan.

(** Functions that meet the hypotheses: a product as the square, and cosine and sine to 60 binary digits. *)
Example C105_functions : close_trig near_cos near_sin /\ close_square (fun x => fmul x x).
Proof. split; [exact near_trig|exact fmul_square]. Qed.
(** A walk of eight seconds at a thirty-second of a metre per second with the settings as constructed and a period of a quarter
    of a second: the left foot steps after 4.5 s, then the right foot, then the left one next to it. *)
Definition ex_maths : maths f64 := ieee_maths (fun x => fmul x x) near_cos near_sin (fun _ _ => fzero).
Definition ex_set : field -> f64 := settings ieee [sPeriod (fmake 1 (-2))].
Definition ex_sol (t : f64) : dpose f64 := MkDP (fmul (fmake 1 (-5)) t) fzero fzero.
Definition ex_cfg : tcfg f64 := cfg64 ex_set fzero (fmake 8 0) true true true.
Definition ex_plan : tres f64 (dpose f64) :=
  t_plan ieee ex_cfg (step_geo ieee ex_maths ex_set (prob_of ex_set true None) ex_sol (MkDP fzero fzero fzero) (c_end ex_cfg) true true true None) 100 [] [].
Example C105_example : fin (ex_set q_maxLen) = true /\ fin (ex_set q_minWidth) = true /\ fin (ex_set q_maxAngle) = true /\
  match ex_plan with
  | TDone [_; x; y] [_; z] _ _ => Beqb (snd x) (fmake 9 (-1)) && Bltb (snd x) (snd z) && Bltb (snd z) (snd y)
      && Beqb (d_x (fst x)) (fmake 9 (-6)) && Bltb (d_x (fst x)) (d_x (fst z)) && Beqb (d_x (fst z)) (d_x (fst y))
  | _ => false
  end = true.
Proof. repeat split; vm_compute; reflexivity. Qed.

(** ** The limits are not met exactly *)
Definition far_x : f64 := fmake 3252822609021749 (-53).
Definition far_y : f64 := fmake 6790317127988749 (-55).
Definition far_l : f64 := fmake 7338291448131273 (-54).
Definition far_set : field -> f64 := settings ieee [sPeriod (fmake 1 (-2)); sMaxLen far_l; sWidth (fmake 1 (-4)) (fmake 6790317127988749 (-54))].
Definition far_cfg : tcfg f64 := cfg64 far_set fzero (fmake 8 0) true true true.
Definition far_left : dpose f64 * f64 := (MkDP fzero far_y fzero, fzero).
Definition far_right : dpose f64 * f64 := (MkDP fzero fzero fzero, fzero).
Definition far_plan : tres f64 (dpose f64) :=
  t_plan ieee far_cfg (step_geo ieee ex_maths far_set (prob_of far_set true None) (fun _ => MkDP far_x fzero fzero) (MkDP fzero fzero fzero) (c_end far_cfg) true true true None) 100 [far_left] [far_right].
Lemma far_value : forall m e, (Z.abs m < 2 ^ 53)%Z -> (-1074 <= e <= 0)%Z -> fin (fmake m e) = true /\ f2r (fmake m e) = IZR m * bpow radix2 e.
Proof.
  intros m e Hm He. assert (E : F2R (Float radix2 m e) = IZR m * bpow radix2 e) by reflexivity. destruct (fmake_ok m e) as (F & V).
  - rewrite E, Rabs_mult, (Rabs_pos_eq (bpow radix2 e)) by apply bpow_ge_0. assert (bpow radix2 e <= 1) by (apply (bpow_le radix2 e 0); lia). pose proof (bpow_ge_0 radix2 e).
    rewrite <- abs_IZR. assert (IZR (Z.abs m) <= bpow radix2 53) by (change (bpow radix2 53) with (IZR (2 ^ 53)); apply IZR_le; lia). pose proof pow_top. pose proof (bpow_le radix2 53 1023 ltac:(lia)).
    assert (0 <= IZR (Z.abs m)) by (apply (IZR_le 0); lia). assert (IZR (Z.abs m) * bpow radix2 e <= IZR (Z.abs m) * 1) by (apply Rmult_le_compat_l; auto). lra.
  - split; auto. rewrite V, E. apply b64_fix. apply is_b64_dyadic; lia.
Qed.
(** Finding: the left foot steps further from the right foot than the maximum step length that was set. *)
Theorem C105_strict_refuted : calls_accepted (initv ieee) [sPeriod (fmake 1 (-2)); sMaxLen far_l; sWidth (fmake 1 (-4)) (fmake 6790317127988749 (-54))] = true /\
  f2r (far_set q_maxLen) = f2r far_l /\
  exists a x b z sw sl, far_plan = TDone [a; x] [b; z] sw sl /\ lt64 (snd b) (snd x) /\ lt64 (snd x) (snd z) /\
  f2r (far_set q_maxLen) < apart (spot (fst b)) (spot (fst x)).
Proof.
  split; [vm_compute; reflexivity|]. assert (E : f2r (far_set q_maxLen) = f2r far_l) by (apply f_equal; apply same_f64; vm_compute; reflexivity). split; auto. rewrite E.
  assert (T : match far_plan with
    | TDone [a; x] [b; z] _ _ => Beqb (d_x (fst x)) far_x && (Beqb (d_y (fst x)) far_y && (Beqb (d_x (fst b)) fzero && (Beqb (d_y (fst b)) fzero && (Bltb (snd b) (snd x) && (Bltb (snd x) (snd z)
        && (fin (d_x (fst x)) && (fin (d_y (fst x)) && (fin (d_x (fst b)) && fin (d_y (fst b))))))))))
    | _ => false end = true) by (vm_compute; reflexivity).
  destruct far_plan as [l r sw sl| | |]; try discriminate T. destruct l as [|a [|x [|? ?]]]; try discriminate T. destruct r as [|b [|z [|? ?]]]; try discriminate T. exists a, x, b, z, sw, sl.
  apply andb_prop in T. destruct T as (T1 & T). apply andb_prop in T. destruct T as (T2 & T). apply andb_prop in T. destruct T as (T3 & T). apply andb_prop in T. destruct T as (T4 & T).
  apply andb_prop in T. destruct T as (T5 & T). apply andb_prop in T. destruct T as (T6 & T). apply andb_prop in T. destruct T as (T7 & T). apply andb_prop in T. destruct T as (T8 & T). apply andb_prop in T. destruct T as (T9 & T10).
  split; [reflexivity|]. split; [exact T5|]. split; [exact T6|].
  destruct (far_value 3252822609021749 (-53)) as (Fx & Vx); [lia|lia|]. destruct (far_value 6790317127988749 (-55)) as (Fy & Vy); [lia|lia|]. destruct (far_value 7338291448131273 (-54)) as (_ & Vl); [lia|lia|].
  rewrite beq_ok in T1 by auto. rewrite beq_ok in T2 by auto. rewrite beq_ok in T3, T4 by auto. rcasesh T1; [|discriminate]. rename Hc into X. rcasesh T2; [|discriminate]. rename Hc into Y. rcasesh T3; [|discriminate]. rename Hc into X0. rcasesh T4; [|discriminate]. rename Hc into Y0.
  unfold apart, spot. cbn [fst snd]. rewrite X, Y, X0, Y0. unfold far_x, far_y, far_l. rewrite Vx, Vy, Vl. change (f2r fzero) with 0.
  change (bpow radix2 (-53)) with (/ 9007199254740992). change (bpow radix2 (-54)) with (/ 18014398509481984). change (bpow radix2 (-55)) with (/ 36028797018963968).
  set (k := 7338291448131273 * / 18014398509481984). assert (K : 0 <= k) by (unfold k; lra). rewrite <- (sqrt_Rsqr k K). apply sqrt_lt_1; unfold Rsqr, k; lra.
Qed.
Print Assumptions C105_strict_refuted.
