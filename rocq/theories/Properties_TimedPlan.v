(** C86 to C88: planning in IEEE doubles. *)
From Coq Require Import String Reals ZArith List Bool Lia Lra Sorting.Permutation Sorting.Sorted.
From Flocq Require Import Core IEEE754.BinarySingleNaN.
From Verif Require Import Rounding RoundedGen RoundedGenSpec RoundedGenProofs2 RoundedGenProofs3 Doubles DoublesGen DoublesSpec DoublesProofs DoublesProofs2 DoublesProofs3 DoublesProofs4 DoublesProofs5 DoublesProofs6
  Prelude FootPrint PlannerSearch Planner GenPhases GenSpec
  TimedPlan TimedPlanSpec TimedPlanProofs TimedPlanProofs2 TimedPlanProofs3 TimedPlanProofs4 TimedPlanProofs5 Properties_Rounded Properties_Doubles.
Import ListNotations.
Open Scope R_scope.
Opaque fadd fsub fmul fdiv fmake f1 fm1 fpi rad.

(** The instance with exact reals and the geometry of the planner is the model of computeNewSteps used by C26 to C31 and C74. *)
Theorem C86_exact_model : forall c e fuel lfp rfp init tend,
  compute_new_steps c e fuel lfp rfp init tend =
  match t_plan reals (exact_cfg c init tend) (exact_geo c e init tend lfp rfp) fuel (map split_step (fp_steps lfp)) (map split_step (fp_steps rfp)) with
  | TDone l r sw sl => PDone (foot_with c lfp rfp true l) (foot_with c lfp rfp false r) sw sl
  | TFail => PFail
  | TUB => PUB
  | TFuel => PFuel
  end.
Proof. intros. apply plan_exact. Qed.
Print Assumptions C86_exact_model.

Lemma nom_ok : forall l, List.Forall tame l -> Bltb (settings ieee l q_nomT) fzero = false.
Proof.
  intros l H. destruct (v_times _ (C82_ranges l H)) as (A & B & _). destruct (le64_number _ _ A), (le64_number _ _ B).
  apply le64_inv in A. apply le64_inv in B. rewrite blt_key by auto. rcases; auto; lra.
Qed.
Lemma period_fin : forall x, 0 < f2r x -> fin x = true.
Proof. intros [s|s| |s m e H] K; auto; unfold f2r in K; simpl in K; lra. Qed.

(** C86: the search returns, for any answers of the geometry and any settings, if the period is at least the spacing of
    the doubles up to the end time. *)
Theorem C86_returns : forall P (o : geo f64 P) l init tend aT rs sl left right, List.Forall tame l ->
  fin init = true -> fin tend = true -> resolves (f2r (settings ieee l q_period)) (f2r tend) -> stored left -> stored right ->
  exists n0, forall n, (n0 <= n)%nat -> t_plan ieee (cfg64 (settings ieee l) init tend aT rs sl) o n left right <> TFuel.
Proof.
  intros P o l init tend aT rs sl left right T Fi Fe Hr SL SR. set (c := cfg64 (settings ieee l) init tend aT rs sl).
  destruct (Rle_lt_dec 0 (key init)) as [K|K].
  - apply plan_ends; auto.
    + apply nom_ok; auto.
    + apply resolves_advances; auto. apply period_fin. apply Hr.
  - exists O. intros n _. rewrite plan_negative; auto. discriminate.
Qed.
Print Assumptions C86_returns.

(** With the period as constructed, a hundredth of a second, every end time up to a million years is covered. *)
Example C86_default_example : forall tend, fin tend = true -> f2r tend <= IZR 35184372088832 ->
  resolves (f2r (initv ieee q_period)) (f2r tend).
Proof.
  intros tend F H. destruct (q_ok 1 100) as (_ & E); [lia|lia|]. change (initv ieee q_period) with (a_q ieee 1 100). rewrite E.
  assert (L : / 128 <= b64 (1 / 100)).
  { change (/ 128) with (bpow radix2 (-7)).
    replace (bpow radix2 (-7)) with (b64 (bpow radix2 (-7))).
    - apply (r_mono _ b64_rounding). change (bpow radix2 (-7)) with (/ 128). lra.
    - apply b64_fix. apply generic_format_bpow. unfold b64_exp, FLT_exp. simpl. lia. }
  unfold resolves. split; [lra|]. apply Rle_trans with (bpow radix2 (-52) * IZR 35184372088832).
  - apply Rmult_le_compat_l; auto. apply bpow_ge_0.
  - change (bpow radix2 (-52)) with (/ 4503599627370496). lra.
Qed.

(** Answers of a geometry in which every candidate is as good as any other. *)
Definition some_geo : geo f64 unit :=
  MkGeo true true true (fun _ => tt) None (fun _ _ _ _ => false) (fun _ _ _ _ _ _ => Some (Some f1)) (fun _ _ _ _ => Some tt)
    (fun _ _ _ _ => Some false) (fun _ _ _ => Some tt) (fun _ _ _ _ _ => Some true) (fun _ x => x).

(** C86, finding: a period below the spacing of the doubles at the initial time is accepted, and the planner does not
    return: from t = 1 the search goes to 1 + 2^-60 = 1. *)
Definition lost_calls : list (setter f64) := [sPeriod (fmake 1 (-60))].
Lemma stuck : forall P (c : tcfg f64) (o : geo f64 P) s, a_le ieee (t_t s) (c_end c) = true -> t_iter ieee c o s = Ok s ->
  forall n, t_run ieee c o n s = TLFuel.
Proof. intros P c o s L E n. induction n as [|n IH]; cbn [t_run]; rewrite L; auto. rewrite E. exact IH. Qed.
Theorem C86_lost_period_refuted : calls_accepted (initv ieee) lost_calls = true /\ 0 < f2r (settings ieee lost_calls q_period) /\
  forall n, t_plan ieee (cfg64 (settings ieee lost_calls) f1 (fmake 2 0) true true true) some_geo n [] [] = TFuel.
Proof.
  split; [|split].
  - vm_compute. reflexivity.
  - assert (H : Bltb fzero (settings ieee lost_calls q_period) = true) by (vm_compute; reflexivity).
    rewrite blt_ok in H by (vm_compute; reflexivity). rcasesh H; [|discriminate]. exact Hc.
  - set (c := cfg64 (settings ieee lost_calls) f1 (fmake 2 0) true true true). intros n.
    set (f := [(tt, f1)]).
    assert (E : t_feet ieee c some_geo [] [] = Some (f, f, true, true)).
    { unfold t_feet, t_keep, t_add. cbn [last_opt some_geo o_point o_lateral o_first].
      assert (B : below0 ieee (c_init c) = false) by (vm_compute; reflexivity). rewrite B. reflexivity. }
    unfold t_plan. rewrite E. cbn [some_geo o_checks o_integ negb].
    assert (L : a_le ieee (c_end c) (c_init c) = false) by (vm_compute; reflexivity). rewrite L.
    unfold t_search. cbn [last_opt f]. rewrite stuck; [reflexivity|..].
    + cbn [t_t]. vm_compute. reflexivity.
    + unfold t_iter, t_body. cbn [t_t t_prev snd t_off].
      assert (Q : a_lt ieee (a_add ieee (c_init c) (c_nom c)) (c_init c) = false) by (vm_compute; reflexivity). rewrite Q.
      rewrite andb_false_r. cbn [rbind t_left t_right t_sw t_t t_opt t_minCost t_pause t_off t_prev].
      assert (A : t_advance ieee c (c_init c) = c_init c) by (apply same_f64; vm_compute; reflexivity). rewrite A. reflexivity.
Qed.
Print Assumptions C86_lost_period_refuted.

(** C87: the new steps, dealt to the feet in turns starting with the swing foot, in doubles.  [a] are the steps of the
    search, [b] the terminal ones; [prev] is the last step of the first stance foot. *)
Theorem C87_plan : forall P (o : geo f64 P) calls init tend aT rs st left right n left' right' sw' sl, List.Forall tame calls ->
  let c := cfg64 (settings ieee calls) init tend aT rs st in
  fin init = true -> fin tend = true -> resolves (f2r (c_dT c)) (f2r tend) -> times_ok left -> times_ok right ->
  t_plan ieee c o n left right = TDone left' right' sw' sl ->
  exists (l r : list (P * f64)) (sw : bool) (prev : P * f64) (a b : list (P * f64)),
  started c o left right l r
  /\ last_opt (if sw then r else l) = Some prev /\ le64 (snd prev) init
  /\ (forall x, last_opt (if sw then l else r) = Some x -> le64 (snd x) (snd prev))
  /\ consecutive (follows c) (snd prev) (map snd a)
  /\ terminal_at c (snd (last a prev)) (map snd b) /\ (aT = false -> b = [])
  /\ (fin (fadd tend (c_nom c)) = true -> resolves (f2r (c_nom c)) (f2r (fadd tend (c_nom c))) ->
      consecutive lt64 (snd (last a prev)) (map snd b))
  /\ sw' = turn sw a
  /\ (a ++ b <> [] -> grown l r sw (a ++ b) left' right')
  /\ (a ++ b = [] -> aligned l r left' right').
Proof.
  intros P o calls init tend aT rs st left right n left' right' sw' sl T c Fi Fe Hr TL TR H.
  destruct (Rle_lt_dec 0 (key init)) as [K|K].
  - destruct (plan_steps P c o Fi Fe (nom_ok calls T)) with (n := n) (left := left) (right := right) (l' := left') (r' := right') (sw' := sw') (sl := sl)
      as (l & r & sw & prev & a & b & H1 & H2 & H3 & H4 & H5 & H6 & H7 & H8 & H9); auto.
    + apply resolves_advances; auto. apply period_fin. apply Hr.
    + exists l, r, sw, prev, a, b. repeat (split; [assumption|]). split; [|exact H9].
      intros Fn Hn. apply H8; auto. apply resolves_advances; auto. apply period_fin. apply Hn.
  - exfalso. rewrite plan_negative in H; auto using times_stored. discriminate.
Qed.
Print Assumptions C87_plan.

(** A plan of six seconds from rest: two searched steps, two terminal ones. *)
Definition plan_calls : list (setter f64) := [sTimings f1 (fmake 3 0) (fmake 2 0); sPeriod (fmake 1 (-2))].
Definition times_of (x : tres f64 unit) : option (list f64 * list f64) :=
  match x with TDone l r _ _ => Some (map snd l, map snd r) | _ => None end.
Definition same_times (x : option (list f64 * list f64)) (l r : list f64) : bool :=
  match x with
  | Some (a, b) => Nat.eqb (length a) (length l) && Nat.eqb (length b) (length r)
                   && forallb (fun p => Beqb (fst p) (snd p)) (combine a l ++ combine b r)
  | None => false
  end.
Example C87_example : calls_accepted (initv ieee) plan_calls = true /\
  let c := cfg64 (settings ieee plan_calls) fzero (fmake 6 0) true true true in
  same_times (times_of (t_plan ieee c some_geo 30 [] []))
    [fzero; fmake 3 0; fmake 31 (-2)] [fzero; fmake 23 (-2); fmake 39 (-2)] = true.
Proof. split; [vm_compute; reflexivity|vm_compute; reflexivity]. Qed.
Lemma quarter : f2r (fmake 1 (-2)) = / 4.
Proof.
  destruct (fmake_ok 1 (-2)) as (_ & E).
  - unfold F2R. simpl. rewrite Rabs_pos_eq by lra. pose proof pow_top. apply Rle_trans with (bpow radix2 1023); auto.
    apply Rle_trans with (bpow radix2 0); [simpl; lra|]. apply bpow_le. lia.
  - rewrite E. replace (F2R (Float radix2 1 (-2))) with (bpow radix2 (-2)) by (unfold F2R; simpl; lra).
    change (/ 4) with (bpow radix2 (-2)). apply b64_fix. apply (generic_format_bpow radix2 b64_exp (-2)). unfold b64_exp, FLT_exp. simpl. lia.
Qed.
Example C87_hypotheses_example : List.Forall tame plan_calls /\ resolves (f2r (settings ieee plan_calls q_period)) (f2r (fmake 6 0))
  /\ fin (fadd (fmake 6 0) (settings ieee plan_calls q_nomT)) = true
  /\ resolves (f2r (settings ieee plan_calls q_nomT)) (f2r (fadd (fmake 6 0) (settings ieee plan_calls q_nomT))).
Proof.
  split.
  { assert (N : forall x : f64, is_nan x = false -> number x) by (intros x Hx E; rewrite E in Hx; discriminate).
    repeat apply Forall_cons; [..|apply Forall_nil]; (split; [|exact Logic.I]); cbn [args In]; intros x Hx;
      repeat (destruct Hx as [<-|Hx]; [apply N; vm_compute; reflexivity|]); destruct Hx. }
  destruct (fmake_exact 6) as (F6 & E6); [lia|].
  assert (P4 : settings ieee plan_calls q_period = fmake 1 (-2)) by (apply same_f64; vm_compute; reflexivity).
  assert (P2 : settings ieee plan_calls q_nomT = fmake 2 0) by (apply same_f64; vm_compute; reflexivity).
  assert (P8 : fadd (fmake 6 0) (fmake 2 0) = fmake 8 0) by (apply same_f64; vm_compute; reflexivity).
  rewrite P4, P2, P8. destruct (fmake_exact 8) as (F8 & E8); [lia|]. destruct (fmake_exact 2) as (F2 & E2); [lia|].
  pose proof quarter as E4.
  rewrite E4, E6, E8, E2. unfold resolves. change (bpow radix2 (-52)) with (/ 4503599627370496). repeat split; auto; lra.
Qed.

(** C87, finding: a nominal time below the spacing of the doubles is accepted; the terminal steps then share the time of
    the last step of the search, so one foot has two steps at the same time. *)
Definition tiny_calls : list (setter f64) := [sTimings (fmake 1 (-60)) (fmake 3 0) (fmake 1 (-60)); sPeriod (fmake 1 (-2))].
Theorem C87_equal_times_refuted : calls_accepted (initv ieee) tiny_calls = true /\ lt64 fzero (settings ieee tiny_calls q_minT) /\
  let c := cfg64 (settings ieee tiny_calls) fzero (fmake 6 0) true true true in
  same_times (times_of (t_plan ieee c some_geo 60 [] []))
    [fzero; fmake 3 0; fmake 6 0; fmake 6 0] [fzero; fmake 23 (-2); fmake 6 0] = true.
Proof. split; [vm_compute; reflexivity|split; vm_compute; reflexivity]. Qed.
Print Assumptions C87_equal_times_refuted.

(** ** C88: from the plan to the phases *)
(** A plan that starts from no step, or from one step per foot, is a walk for the generator. *)
Lemma first_plan_walk : forall lead P (o : geo f64 P) calls init tend aT rs st left right n left' right' sw' sl nL nR B,
  List.Forall finite_args calls ->
  let s := settings ieee calls in let c := cfg64 s init tend aT rs st in
  fin init = true -> fin tend = true -> resolves (f2r (s q_period)) (f2r tend) -> times_ok left -> times_ok right -> fresh64 left right ->
  t_plan ieee c o n left right = TDone left' right' sw' sl ->
  bpow radix2 (-900) <= B <= bpow radix2 900 -> f2r tend + 3 * f2r (s q_nomT) <= B -> bpow radix2 (-48) * B <= f2r (s q_minT) ->
  lead <= 0 \/ recent left right init (rgap c B - lead) ->
  walk (fp_steps (real_foot (nfoot_with nL left'))) (fp_steps (real_foot (nfoot_with nR right'))) (f2r init) lead (rgap c B)
  /\ List.Forall (within P B) left' /\ List.Forall (within P B) right'
  /\ 0 <= f2r init /\ f2r init < f2r tend /\ 0 <= f2r (s q_nomT).
Proof.
  intros lead P o calls init tend aT rs st left right n left' right' sw' sl nL nR B FA s c Fi Fe Hr TL TR FR H HB Hend Hmin HLD.
  assert (TM : List.Forall tame calls) by (eapply List.Forall_impl; [apply finite_tame|exact FA]).
  pose proof (time_fin calls FA) as TF.
  assert (Fn : fin (s q_nomT) = true) by (apply TF; unfold tfields; simpl; tauto).
  assert (Fm : fin (s q_minT) = true) by (apply TF; unfold tfields; simpl; tauto).
  destruct (C87_plan P o calls init tend aT rs st left right n left' right' sw' sl TM Fi Fe Hr TL TR H)
    as (l & r & sw & prev & a & b & H1 & H2 & H3 & H4 & H5 & H6 & _ & _ & _ & H10 & H11). fold s in H1, H5, H6. fold c in H1, H5, H6.
  destruct (Rle_lt_dec 0 (key init)) as [K|K]; [|exfalso; fold s c in H; rewrite plan_negative in H; auto using times_stored; discriminate].
  rewrite key_fin in K by auto.
  assert (Hie : f2r init < f2r tend).
  { unfold t_plan in H. destruct (negb (o_checks o)); [discriminate|].
    destruct (t_feet _ _ _ _ _) as [[[[? ?] ?] ?]|]; [|discriminate]. destruct (a_le ieee _ _) eqn:L in H; [discriminate|].
    apply horizon in L; auto. rewrite !key_fin in L by auto. exact L. }
  assert (Hmn : f2r (s q_minT) <= f2r (s q_nomT)).
  { destruct (v_times _ (C82_ranges calls TM)) as (_ & V & _). fold s in V. apply le64_inv in V. rewrite !key_fin in V by auto. exact V. }
  assert (P48 : 0 < bpow radix2 (-48)) by apply bpow_gt_0. pose proof (bpow_gt_0 radix2 (-900)) as P9.
  assert (LR : exists x y, l = [x] /\ r = [y] /\ fin (snd x) = true /\ fin (snd y) = true /\ 0 <= f2r (snd x) /\ 0 <= f2r (snd y)
      /\ (lead <= 0 \/ f2r init + lead <= f2r (snd x) + rgap c B \/ f2r init + lead <= f2r (snd y) + rgap c B)).
  { destruct FR as [(E1 & E2)|(x & y & E1 & E2)]; subst left right; destruct H1 as (-> & ->).
    - exists (o_first o true, init), (o_first o false, init). simpl. repeat (split; [auto; fail|]). destruct HLD as [HLD|(HLD & _)]; [auto|right; left; lra].
    - exists x, y. assert (X : le64 fzero (snd x)) by (apply TL; left; auto). assert (Y : le64 fzero (snd y)) by (apply TR; left; auto).
      assert (F : forall z, le64 fzero z -> le64 z init -> fin z = true /\ 0 <= f2r z).
      { intros z Z1 Z2. destruct (le64_number _ _ Z1) as (_ & NZ). apply le64_inv in Z1. apply le64_inv in Z2.
        assert (FZ : fin z = true) by (apply key_number_fin with fzero init; auto). split; auto. rewrite !key_fin in Z1 by auto. exact Z1. }
      assert (LE : forall z w : f64, le64 z w -> le64 w init -> le64 z init).
      { intros z w Z1 Z2. destruct (le64_number _ _ Z1), (le64_number _ _ Z2). apply le64_inv in Z1. apply le64_inv in Z2. apply le64_key; auto. lra. }
      assert (XI : le64 (snd x) init /\ le64 (snd y) init).
      { destruct sw; simpl in H2, H4; inversion H2; subst prev; split; auto; eapply LE; eauto. }
      destruct XI as (XI & YI). destruct (F _ X XI), (F _ Y YI). repeat (split; [auto; fail|]). destruct HLD as [HLD|(_ & HLD)]; [auto|right].
      destruct HLD as [HLD|(z & HLD & HLT)]; [discriminate|]. destruct HLD as [<-|[<-|[]]]; [left|right]; lra. }
  destruct LR as (x & y & -> & -> & Fx & Fy & X0 & Y0 & HL2).
  assert (EP : prev = if sw then y else x) by (destruct sw; simpl in H2; inversion H2; auto).
  assert (XY : f2r (snd x) <= f2r init /\ f2r (snd y) <= f2r init).
  { apply le64_inv in H3. destruct sw; subst prev.
    - specialize (H4 x eq_refl). apply le64_inv in H4. rewrite !key_fin in * by auto. lra.
    - specialize (H4 y eq_refl). apply le64_inv in H4. rewrite !key_fin in * by auto. lra. }
  destruct XY as (XI & YI).
  assert (HL3 : lead <= 0 \/ f2r init + lead <= f2r (snd prev) + rgap c B).
  { destruct HL2 as [HL2|HL2]; [auto|right]. destruct sw; subst prev.
    - specialize (H4 x eq_refl). apply le64_inv in H4. rewrite !key_fin in H4 by auto. lra.
    - specialize (H4 y eq_refl). apply le64_inv in H4. rewrite !key_fin in H4 by auto. lra. }
  destruct (planned_walk P c B Fi Fe Fn Fm K Hmn Hend HB Hmin Hie lead x y sw a b left' right' prev nL nR) as (W & WL & WR); auto.
  repeat (split; [assumption|]). apply Rle_trans with (f2r (s q_minT)); auto. apply Rle_trans with (2 := Hmin). apply Rmult_le_pos; lra.
Qed.

(** Times of a plan that starts from no step, or from one step per foot, are a walk for the generator, and the phases are computed
    without any failure; [B] bounds the times, [dT] is the sampling period. *)
Theorem C88_plan_then_phases : forall P (o : geo f64 P) calls init tend aT rs st left right n left' right' sw' sl pause nL nR dT srt B,
  List.Forall finite_args calls ->
  let s := settings ieee calls in let c := cfg64 s init tend aT rs st in
  fin init = true -> fin tend = true -> resolves (f2r (s q_period)) (f2r tend) -> times_ok left -> times_ok right -> fresh64 left right ->
  t_plan ieee c o n left right = TDone left' right' sw' sl ->
  fin dT = true -> bpow radix2 (-900) <= f2r dT <= B -> B <= bpow radix2 50 * f2r dT -> B <= bpow radix2 900 ->
  f2r (s q_terminal) <= B -> f2r dT <= 2 * f2r (s q_terminal) ->
  f2r tend + 3 * f2r (s q_nomT) <= B -> f2r dT / 2 + bpow radix2 (-48) * B <= f2r (s q_minT) ->
  nL <> nR -> sorted64 (nfoot_with nL left') (nfoot_with nR right') srt ->
  exists ord ph, n_generate ieee s pause (nfoot_with nL left') (nfoot_with nR right') init dT srt = Ok (ord, ph).
Proof.
  intros P o calls init tend aT rs st left right n left' right' sw' sl pause nL nR dT srt B FA s c Fi Fe Hr TL TR FR H
    Fd Hd HB1 HB2 HT1 HT2 Hend Hmin HN HS.
  assert (P48 : 0 < bpow radix2 (-48)) by apply bpow_gt_0. pose proof (bpow_gt_0 radix2 (-900)) as P9.
  assert (Hm : bpow radix2 (-48) * B <= f2r (s q_minT)) by (apply Rle_trans with (2 := Hmin); lra).
  destruct (first_plan_walk 0 P o calls init tend aT rs st left right n left' right' sw' sl nL nR B) as (W & WL & WR & K & Hie & Hn); auto; [lra|left; lra|].
  fold s in W, Hn. fold c in W.
  assert (IS : in_scope s (nfoot_with nL left') (nfoot_with nR right') init dT B).
  { assert (BND : forall m (z : list (P * f64)) w, List.Forall (within P B) z -> In w (nf_steps (nfoot_with m z)) -> fin (fst w) = true /\ Rabs (f2r (fst w)) <= B).
    { intros m z w Z I. unfold nfoot_with in I. cbn [nf_steps] in I. apply in_map_iff in I. destruct I as (v & <- & I). rewrite List.Forall_forall in Z.
      destruct (Z v I) as (Z1 & Z2 & Z3). cbn [fst]. split; auto. apply Rabs_le. lra. }
    constructor; auto.
    - split; auto. apply Rabs_le. lra.
    - intros w I. apply in_app_or in I. destruct I as [I|I]; [apply (BND nL left')|apply (BND nR right')]; auto. }
  destruct (C83_rounded_model calls pause _ _ init dT srt B FA IS) as (Ho & E).
  { intros t Ht. eapply Permutation_in; [apply HS|auto]. }
  set (ops := gops (map (map_setter f2r) calls) ++ [GoPauseActive pause]) in *.
  assert (G : g_endSwitch (settings64 ops) = f2r (s q_terminal)).
  { subst ops. rewrite <- gset_settings by auto. reflexivity. }
  destruct (C81_walks_accepted ops (real_foot (nfoot_with nL left')) (real_foot (nfoot_with nR right')) (f2r init) (f2r dT) (map real_step srt) (rgap c B) B)
    as (out & OK); auto.
  - apply (DoublesSpec.i_init _ _ _ _ _ _ IS).
  - intros w I. apply in_app_or in I.
    assert (BND : forall m (z : list (P * f64)), List.Forall (within P B) z -> In w (fp_steps (real_foot (nfoot_with m z))) -> Rabs (st_time w) <= B).
    { intros m z Z J. unfold real_foot, foot_at, map_nfoot, nfoot_with in J. cbn [fp_steps nf_steps] in J. rewrite !map_map in J. apply in_map_iff in J.
      destruct J as (v & <- & J). rewrite List.Forall_forall in Z. destruct (Z v J) as (Z1 & Z2 & Z3). cbn. apply Rabs_le. lra. }
    destruct I as [I|I]; [apply (BND nL left')|apply (BND nR right')]; auto.
  - apply sorted_real; [|exact HS]. intros w I. apply (DoublesSpec.i_times _ _ _ _ _ _ IS w I).
  - rewrite G. exact HT2.
  - unfold rgap. change (c_min c) with (s q_minT). change (bpow radix2 (-49)) with (/ 562949953421312).
    change (bpow radix2 (-51)) with (/ 2251799813685248). change (bpow radix2 (-48)) with (/ 281474976710656) in Hmin. lra.
  - rewrite OK in E. destruct (n_generate ieee _ pause _ _ init dT srt) as [(ord & ph)| |]; try contradiction. eauto.
Qed.
Print Assumptions C88_plan_then_phases.
(** The plan of C87_example with a sampling period of a quarter of a second meets the hypotheses on the settings, ... *)
Example C88_example : List.Forall finite_args plan_calls /\ fresh64 (@nil (unit * f64)) []
  /\ let s := settings ieee plan_calls in let dT := fmake 1 (-2) in let B := 16 in
  resolves (f2r (s q_period)) (f2r (fmake 6 0)) /\ bpow radix2 (-900) <= f2r dT <= B /\ B <= bpow radix2 50 * f2r dT /\ B <= bpow radix2 900
  /\ f2r (fmake 6 0) + 3 * f2r (s q_nomT) <= B /\ f2r dT / 2 + bpow radix2 (-48) * B <= f2r (s q_minT)
  /\ f2r (s q_terminal) <= B /\ f2r dT <= 2 * f2r (s q_terminal).
Proof.
  split.
  { repeat apply Forall_cons; [..|apply Forall_nil]; cbn [finite_args args In]; intros x Hx;
      repeat (destruct Hx as [<-|Hx]; [vm_compute; reflexivity|]); destruct Hx. }
  split; [left; auto|]. intros s dT B. destruct C87_hypotheses_example as (_ & HR & _).
  assert (P2 : s q_nomT = fmake 2 0) by (apply same_f64; vm_compute; reflexivity).
  assert (P1 : s q_minT = f1) by (apply same_f64; vm_compute; reflexivity).
  assert (PT : s q_terminal = initv ieee q_terminal) by (apply same_f64; vm_compute; reflexivity).
  assert (VT : f2r (initv ieee q_terminal) = 1).
  { cbn [initv]. change (c1 ieee) with (a_q ieee 1 1). apply (q1_ok 1). lia. }
  destruct f1_ok as (_ & V1). destruct (fmake_exact 2) as (_ & V2); [lia|]. destruct (fmake_exact 6) as (_ & V6); [lia|].
  split; [exact HR|]. subst dT B. rewrite P2, P1, PT, VT, V1, V2, V6, quarter.
  split; [split; [change (/ 4) with (bpow radix2 (-2)); apply bpow_le; lia|lra]|].
  split; [simpl; lra|]. split; [change 16 with (bpow radix2 4); apply bpow_le; lia|].
  change (bpow radix2 (-48)) with (/ 281474976710656). repeat split; lra.
Qed.
(** ... and the phases are computed from any sorted list of its steps; there is one. *)
Lemma sorted_exists : forall l : list (nstep f64), forallb (fun x => fin (n_time x)) l = true ->
  exists srt, Permutation srt l /\ StronglySorted (fun a b => Bltb (n_time b) (n_time a) = false) srt.
Proof.
  intros l H.
  assert (K : forall a b : nstep f64, In a l -> In b l -> (Bltb (n_time b) (n_time a) = false <-> f2r (n_time a) <= f2r (n_time b))).
  { rewrite forallb_forall in H. intros a b Ha Hb. apply H in Ha. apply H in Hb. rewrite blt_key by (apply fin_number; auto). rewrite !key_fin by auto.
    rcases; split; intros; lra || congruence. }
  clear H. induction l as [|x l IH]; [exists []; split; constructor|].
  destruct IH as (s & P & S0); [intros a b Ha Hb; apply K; right; auto|].
  assert (G : forall s', (forall a, In a s' -> In a (x :: l)) -> StronglySorted (fun a b => Bltb (n_time b) (n_time a) = false) s' ->
    exists s'', Permutation s'' (x :: s') /\ StronglySorted (fun a b => Bltb (n_time b) (n_time a) = false) s'').
  { induction s' as [|y s' IHs]; intros I S1; [exists [x]; split; [apply Permutation_refl|repeat constructor]|].
    apply StronglySorted_inv in S1. destruct S1 as (S1 & S2).
    destruct (Rle_lt_dec (f2r (n_time x)) (f2r (n_time y))) as [L|L].
    - exists (x :: y :: s'). split; [apply Permutation_refl|]. apply SSorted_cons; [apply SSorted_cons; auto|].
      assert (Fy : Bltb (n_time y) (n_time x) = false) by (apply K; [left; auto|apply I; left; auto|auto]).
      constructor; auto. rewrite List.Forall_forall in S2 |- *. intros z Hz. specialize (S2 z Hz). apply K in S2; [|apply I; left; auto|apply I; right; auto].
      apply K; [left; auto|apply I; right; auto|lra].
    - destruct IHs as (s2 & P2 & S3); [intros; apply I; right; auto|auto|]. exists (y :: s2).
      split; [apply Permutation_trans with (y :: x :: s'); [apply perm_skip; auto|apply perm_swap]|].
      apply SSorted_cons; auto. rewrite List.Forall_forall in S2 |- *. intros z Hz. apply (Permutation_in _ P2) in Hz. destruct Hz as [<-|Hz]; auto.
      apply K; [apply I; left; auto|left; auto|lra]. }
  destruct (G s) as (s'' & P'' & S''); auto.
  { intros a Ha. right. apply (Permutation_in _ P). auto. }
  exists s''. split; auto. apply Permutation_trans with (x :: s); auto.
Qed.
Example C88_run_example : exists left right sw sl srt ord ph, let s := settings ieee plan_calls in
  t_plan ieee (cfg64 s fzero (fmake 6 0) true true true) some_geo 30 [] [] = TDone left right sw sl
  /\ length left = 3%nat /\ length right = 3%nat /\ sorted64 (nfoot_with "left" left) (nfoot_with "right" right) srt
  /\ n_generate ieee s false (nfoot_with "left" left) (nfoot_with "right" right) fzero (fmake 1 (-2)) srt = Ok (ord, ph).
Proof.
  set (r := t_plan ieee (cfg64 (settings ieee plan_calls) fzero (fmake 6 0) true true true) some_geo 30 [] []).
  assert (E : match r with TDone a b _ _ => Nat.eqb (length a) 3 && Nat.eqb (length b) 3
      && forallb (fun x => fin (n_time x)) (n_all (nf_steps (nfoot_with "left" a)) (nf_steps (nfoot_with "right" b))) | _ => false end = true)
    by (vm_compute; reflexivity).
  destruct r as [left right sw sl| | |] eqn:ER; try discriminate E.
  apply andb_true_iff in E. destruct E as (E & E3). apply andb_true_iff in E. destruct E as (E1 & E2). apply Nat.eqb_eq in E1. apply Nat.eqb_eq in E2.
  destruct (sorted_exists _ E3) as (srt & HS).
  destruct C88_example as (H1 & H2 & H3 & H4 & H5 & H6 & H7 & H8 & H9 & H10).
  destruct (C88_plan_then_phases unit some_geo plan_calls fzero (fmake 6 0) true true true [] [] 30 left right sw sl false "left" "right" (fmake 1 (-2)) srt 16)
    as (ord & ph & G); auto; try (intros ? []).
  - discriminate.
  - exists left, right, sw, sl, srt, ord, ph. auto.
Qed.
