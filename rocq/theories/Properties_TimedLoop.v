(** C89: generate and reGenerate in a loop, in IEEE doubles. *)
From Coq Require Import String Reals ZArith List Bool Lia Lra Sorting.Permutation Sorting.Sorted.
From Flocq Require Import Core IEEE754.BinarySingleNaN.
From Verif Require Import Doubles DoublesGen DoublesSpec DoublesProofs DoublesProofs2 DoublesProofs6
  Prelude FootPrint Planner GenPhases GenSpec Generator
  TimedPlan TimedPlanSpec TimedPlanProofs2 TimedPlanProofs3 TimedPlanProofs4 TimedPlanProofs5 Properties_Doubles Properties_TimedPlan Properties_TimedRest TimedLoop TimedLoopSpec TimedLoopProofs.
Import ListNotations.
Open Scope R_scope.
Opaque fadd fsub fmul fdiv fmake f1 fm1 fpi rad.

(** The instance with exact reals is the model of computeNewStepsFromMeasuredSteps used by C46 to C49 and C77 to C79. *)
Theorem C89_exact_model : forall plan garbage g init tend mL mR k,
  let '(l, r, ok) := t_ready reals (again_in (gn_left g) (gn_right g)) init (should_reset garbage g) k (edit_pose mL) (edit_pose mR)
    (st_time mL) (st_time mR) (map split_step (fp_steps (gn_left g))) (map split_step (fp_steps (gn_right g))) in
  let g' := replan plan garbage g init tend mL mR k in
  let L := print_of (gn_left g) l in let R := print_of (gn_right g) r in
  (gn_left (fst g'), gn_right (fst g'), snd g') = if ok then plan L R init tend else (L, R, false).
Proof. exact ready_exact. Qed.
Print Assumptions C89_exact_model.

(** Settings come from accepted or refused setter calls with finite arguments, impact times are numbers not below zero. *)
Definition sound {P : Type} (w : world f64 P) : Prop :=
  (exists calls, List.Forall finite_args calls /\ wf_set w = settings ieee calls) /\ times_ok (wf_left w) /\ times_ok (wf_right w).

(** Both feet have a step with an impact time not after [t]. *)
Definition landed {P : Type} (t : f64) (w : world f64 P) : Prop :=
  (exists z, In z (wf_left w) /\ le64 (snd z) t) /\ (exists z, In z (wf_right w) /\ le64 (snd z) t).

Lemma plan_sound : forall P nL nR (x : wargs f64 P) w l r, nL <> nR -> sound w -> fit (wf_set w) x -> times_ok l -> times_ok r -> fresh64 l r ->
  let c := w_plan ieee nL nR x w l r in sound (fst c) /\ (snd c <> WUndefined /\ snd c <> WNoPhases)
  /\ (forall ord ph, snd c = WGenerated ord ph -> landed (x_init x) (fst c)).
Proof.
  intros P nL nR x w l r HN ((calls & FA & ES) & _) ((B & HB) & HS) TL TR FR. unfold w_plan.
  destruct HB as (Fi & Fe & Fd & Hr & Hd & HB1 & HB2 & Hend & HT1 & Hmin & HT2).
  pose proof (plan_defined P (cfg64 (wf_set w) (x_init x) (x_tend x) (x_term x) (x_rfoot x) (wf_start w)) (x_geo x) (x_fuel x) l r FR) as ND.
  unfold cfg64 in ND.
  assert (REST : (let c := w_cfg x w in t_plan ieee c (x_geo x) (x_fuel x) l r = TFail \/ t_plan ieee c (x_geo x) (x_fuel x) l r = TFuel) -> sound (w_rest ieee x w l r)).
  { intros T. cbv zeta in T. unfold w_rest.
    assert (TM : List.Forall tame calls) by (eapply List.Forall_impl; [apply finite_tame|exact FA]).
    destruct (rest_sound P (x_geo x) calls (x_init x) (x_tend x) (x_term x) (x_rfoot x) (wf_start w) l r (x_fuel x) TM) as (T1 & T2); auto;
      unfold w_cfg in *; rewrite ES in *; auto.
    unfold cfg64 in T1, T2. cbv zeta. destruct (t_rest ieee _ _ _ l r). split; [exists calls; auto|split; auto]. }
  unfold w_cfg in REST. cbv zeta in REST.
  destruct (t_plan ieee _ _ _ l r) as [l' r' sw sl| | |] eqn:E; cbn [fst snd];
    try (split; [apply REST; auto|split; [split; discriminate|discriminate]]).
  2: congruence. clear REST.
  rewrite ES in *.
  destruct (first_plan_walk 0 P (x_geo x) calls (x_init x) (x_tend x) (x_term x) (x_rfoot x) (wf_start w) l r (x_fuel x) l' r' sw sl nL nR B)
    as (W & WL & WR & _); auto.
  { pose proof (bpow_gt_0 radix2 (-900)). lra. }
  { apply Rle_trans with (2 := Hmin). pose proof (bpow_gt_0 radix2 (-900)). lra. }
  { left. lra. }
  split.
  - split; [exists calls; auto|]. cbn [wf_left wf_right].
    assert (TW : forall z, List.Forall (within P B) z -> times_ok z).
    { intros z Z y I. rewrite List.Forall_forall in Z. destruct (Z y I) as (Z1 & Z2 & _).
      apply le64_key; [apply zero_number|apply fin_number; auto|]. rewrite !key_fin by auto. exact Z2. }
    split; auto.
  - split; [|intros ord ph _].
    2:{ assert (LD : forall n z (b : bool), List.Forall (within P B) z -> foot_list (fp_steps (real_foot (nfoot_with nL l'))) (fp_steps (real_foot (nfoot_with nR r'))) b = fp_steps (real_foot (nfoot_with n z)) ->
          fp_steps (real_foot (nfoot_with n z)) <> [] -> exists y, In y z /\ le64 (snd y) (x_init x)).
        { intros n z b Z EZ NE. destruct z as [|y z]; [exfalso; apply NE; reflexivity|]. exists y. split; [left; auto|]. inversion Z; subst. destruct H1 as (Z1 & _).
          apply le64_key; try (apply fin_number; auto). rewrite !key_fin by auto.
          assert (X : exists s, nth_error (fp_steps (real_foot (nfoot_with n (y :: z)))) 0 = Some s /\ st_time s = f2r (snd y)) by (eexists; split; reflexivity).
          destruct X as (s & X1 & <-). apply (w_first _ _ _ _ _ W b). rewrite EZ. exact X1. }
        split; cbn [wf_left wf_right]; [apply (LD nL l' true)|apply (LD nR r' false)]; auto; apply W. }
    destruct (C88_plan_then_phases P (x_geo x) calls (x_init x) (x_tend x) (x_term x) (x_rfoot x) (wf_start w) l r (x_fuel x) l' r' sw sl
      (x_pause x) nL nR (x_dT x) (x_sort x (n_all (nf_steps (named nL l')) (nf_steps (named nR r')))) B) as (ord & ph & G); auto.
    { apply HS. intros a I. unfold n_all in I. apply in_app_or in I.
      assert (TG : forall z b n k, List.Forall (within P B) z -> In a (n_tag b k (map (fun y => (snd y, n)) z)) -> fin (n_time a) = true).
      { induction z as [|y z IHz]; intros b n k Z J; [destruct J|]. inversion Z; subst. destruct J as [<-|J]; [apply H1|eapply IHz; eauto]. }
      destruct I as [I|I]; [apply (TG l' true nL 0%nat)|apply (TG r' false nR 0%nat)]; auto. }
    change (nfoot_with nL l') with (named (N := f64) nL l') in G. change (nfoot_with nR r') with (named (N := f64) nR r') in G.
    rewrite G. split; discriminate.
Qed.

(** Initial time of a call that plans. *)
Definition starts_at {P : Type} (k : wcall f64 P) (t : f64) : Prop := match k with WGen x | WRe x _ _ _ _ _ _ => t = x_init x | _ => False end.
Lemma call_sound : forall P nL nR (w : world f64 P) k, nL <> nR -> sound w -> sane_call w k ->
  let c := w_call ieee nL nR w k in sound (fst c) /\ (snd c <> WUndefined /\ snd c <> WNoPhases)
  /\ (forall ord ph t, snd c = WGenerated ord ph -> starts_at k t -> landed t (fst c)).
Proof.
  intros P nL nR w k HN I HK. destruct k as [s|b| |x|x reset k eL eR mL mR]; cbn [sane_call] in HK.
  - destruct I as ((calls & FA & ES) & T). cbn. split; [|split; [split; discriminate|discriminate]]. split; [|exact T]. exists (calls ++ [s]). split.
    + apply Forall_app. auto.
    + cbn [wf_set]. rewrite ES. unfold settings. rewrite fold_left_app. reflexivity.
  - cbn. split; [exact I|split; [split; discriminate|discriminate]].
  - cbn. split; [|split; [split; discriminate|discriminate]]. destruct I as (I & _). split; [exact I|]. split; intros ? [].
  - destruct HK as (F & X). destruct I as (I1 & I2 & I3). destruct (plan_sound P nL nR x w (wf_left w) (wf_right w)) as (Q1 & Q2 & Q3); auto; [split; auto|].
    split; auto. split; auto. intros ord ph t E ->. eapply Q3; eauto.
  - destruct HK as (X & NL & NR). destruct I as (I1 & I2 & I3). unfold w_call.
    pose proof (ready_ok P (o_again (x_geo x)) (x_init x) reset k eL eR mL mR (wf_left w) (wf_right w) I2 I3 NL NR) as RO.
    destruct (t_ready ieee _ _ _ _ _ _ _ _ _ _) as ((l & r) & ok). destruct RO as (T1 & T2 & RO & _). destruct ok.
    + destruct RO as (a & b & -> & ->); auto. destruct (plan_sound P nL nR x w [a] [b]) as (Q1 & Q2 & Q3); auto; [split; auto|right; eauto|].
      split; auto. split; auto. intros ord ph t E ->. eapply Q3; eauto.
    + cbn. split; [|split; [split; discriminate|discriminate]]. split; auto.
Qed.
Lemma sound_new : forall P, sound (@w_new f64 P ieee).
Proof. intros P. split; [exists []; auto|]. split; intros ? []. Qed.
Lemma sane_app : forall P nL nR l (w : world f64 P) k, sane nL nR w (l ++ [k]) ->
  sane nL nR w l /\ sane_call (fold_left (fun w k => fst (w_call ieee nL nR w k)) l w) k.
Proof.
  intros P nL nR. induction l as [|a l IH]; intros w k H; cbn in *; [tauto|]. destruct H as (H1 & H2). apply IH in H2. tauto.
Qed.
Lemma after_sound : forall P nL nR l (w : world f64 P), nL <> nR -> sound w -> sane nL nR w l ->
  sound (fold_left (fun w k => fst (w_call ieee nL nR w k)) l w).
Proof.
  intros P nL nR. induction l as [|a l IH]; intros w HN I H; auto. destruct H as (H1 & H2). cbn [fold_left]. apply IH; auto. apply call_sound; auto.
Qed.

(** C89: whatever was called before and however it ended, a call in the intended range never meets undefined behaviour and
    its phases are computed whenever the planner found steps. *)
Theorem C89_loop : forall P nL nR (h : list (wcall f64 P)) k, nL <> nR -> sane nL nR (w_new ieee) (h ++ [k]) ->
  let out := snd (w_call ieee nL nR (w_after ieee nL nR h) k) in out <> WUndefined /\ out <> WNoPhases.
Proof.
  intros P nL nR h k HN H. apply sane_app in H. destruct H as (H1 & H2). apply call_sound; auto. apply after_sound; auto. apply sound_new.
Qed.
Print Assumptions C89_loop.

(** The call returns: some fuel suffices. *)
Theorem C89_returns : forall P nL nR (h : list (wcall f64 P)) k, nL <> nR -> sane nL nR (w_new ieee) (h ++ [k]) ->
  exists n0, forall n, (n0 <= n)%nat -> snd (w_call ieee nL nR (w_after ieee nL nR h) (refuel n k)) <> WFuel.
Proof.
  intros P nL nR h k HN H. apply sane_app in H. destruct H as (H1 & H2). fold (w_after ieee nL nR h) in H2.
  assert (I : sound (w_after ieee nL nR h)) by (apply after_sound; auto; apply sound_new). set (w := w_after ieee nL nR h) in *.
  destruct I as ((calls & FA & ES) & TL & TR).
  assert (G : forall x l r, fit (wf_set w) x -> times_ok l -> times_ok r -> exists n0, forall n, (n0 <= n)%nat ->
    snd (w_plan ieee nL nR (MkWA (x_geo x) n (x_init x) (x_tend x) (x_dT x) (x_term x) (x_rfoot x) (x_pause x) (x_sort x)) w l r) <> WFuel).
  { intros x l r ((B & HB) & _) T1 T2. destruct HB as (Fi & Fe & Fd & Hr & _). rewrite ES in Hr.
    assert (TM : List.Forall tame calls) by (eapply List.Forall_impl; [apply finite_tame|exact FA]).
    destruct (C86_returns P (x_geo x) calls (x_init x) (x_tend x) (x_term x) (x_rfoot x) (wf_start w) l r TM Fi Fe Hr) as (n0 & Hn);
      [apply times_stored; auto|apply times_stored; auto|].
    exists n0. intros n L. specialize (Hn n L). unfold w_plan. cbn [x_geo x_fuel x_init x_tend x_dT x_term x_rfoot x_pause x_sort].
    rewrite ES. unfold cfg64 in Hn. destruct (t_plan ieee _ _ n l r) as [l' r' sw sl| | |]; cbn [snd]; try discriminate; [|congruence].
    destruct (n_generate _ _ _ _ _ _ _ _) as [(? & ?)| |]; discriminate. }
  destruct k as [s|b| |x|x reset k eL eR mL mR]; cbn [sane_call] in H2; try (exists O; intros; discriminate).
  - destruct H2 as (_ & X). destruct (G x _ _ X TL TR) as (n0 & Hn). exists n0. intros n L. apply Hn; auto.
  - destruct H2 as (X & NL & NR). 
    pose proof (ready_ok P (o_again (x_geo x)) (x_init x) reset k eL eR mL mR (wf_left w) (wf_right w) TL TR NL NR) as RO.
    destruct (t_ready ieee (o_again (x_geo x)) (x_init x) reset k eL eR mL mR (wf_left w) (wf_right w)) as ((l & r) & ok) eqn:ER.
    destruct RO as (T1 & T2 & _). destruct (G x l r X T1 T2) as (n0 & Hn). exists n0. intros n L.
    cbn [refuel w_call x_geo x_init]. rewrite ER. destruct ok; [apply Hn; auto|discriminate].
Qed.
Print Assumptions C89_returns.

(** Foot prints left by a call that generated can be continued from any time from its initial time on: reGenerate hands one
    step per foot to the planner, whatever is corrected, unless a measured impact time is negative. *)
Theorem C89_continues : forall P nL nR (h : list (wcall f64 P)) k t w' ord ph, nL <> nR -> sane nL nR (w_new ieee) (h ++ [k]) ->
  starts_at k t -> w_call ieee nL nR (w_after ieee nL nR h) k = (w', WGenerated ord ph) ->
  forall again init reset c eL eR mL mR, le64 t init ->
  (corr_left c = true -> le64 fzero mL) -> (corr_right c = true -> le64 fzero mR) ->
  exists a b, t_ready ieee again init reset c eL eR mL mR (wf_left w') (wf_right w') = ([a], [b], true).
Proof.
  intros P nL nR h k t w' ord ph HN H ST E again init reset c eL eR mL mR L ML MR. apply sane_app in H. destruct H as (H1 & H2).
  destruct (call_sound P nL nR (w_after ieee nL nR h) k) as (I & _ & LD); auto.
  { apply after_sound; auto. apply sound_new. }
  destruct I as (_ & TL & TR).
  rewrite E in *. cbn [fst snd] in *. destruct (LD _ _ t eq_refl ST) as ((a & A1 & A2) & (b & B1 & B2)).
  assert (LE : forall z w : f64, le64 z w -> le64 w init -> le64 z init).
  { intros z w Z1 Z2. destruct (le64_number _ _ Z1), (le64_number _ _ Z2). apply le64_inv in Z1. apply le64_inv in Z2. apply le64_key; auto. lra. }
  pose proof (ready_ok P again init reset c eL eR mL mR (wf_left w') (wf_right w') TL TR) as RO.
  destruct (t_ready ieee _ _ _ _ _ _ _ _ _ _) as ((l & r) & ok).
  destruct RO as (_ & _ & R1 & R2); [intros K; apply ML in K; apply le64_number in K; tauto|intros K; apply MR in K; apply le64_number in K; tauto|].
  rewrite R2 in *; eauto. destruct R1 as (x & y & -> & ->); eauto.
Qed.
Print Assumptions C89_continues.

(** C99: a reGenerate whose planner fails takes nothing away: both feet still have a step that has landed, and a further
    reGenerate from the same or a later time hands one step per foot to the planner. *)
Theorem C99_continues_after_failure : forall P nL nR (h : list (wcall f64 P)) x reset k eL eR mL mR l r, nL <> nR ->
  let w := w_after ieee nL nR h in let again := WRe x reset k eL eR mL mR in sane nL nR (w_new ieee) (h ++ [again]) ->
  t_ready ieee (o_again (x_geo x)) (x_init x) reset k eL eR mL mR (wf_left w) (wf_right w) = (l, r, true) ->
  let w' := fst (w_call ieee nL nR w again) in
  forall ag init reset' c eL' eR' mL' mR', le64 (x_init x) init -> (corr_left c = true -> le64 fzero mL') -> (corr_right c = true -> le64 fzero mR') ->
  exists a b, t_ready ieee ag init reset' c eL' eR' mL' mR' (wf_left w') (wf_right w') = ([a], [b], true).
Proof.
  intros P nL nR h x reset k eL eR mL mR l r HN w again H ER w' ag init reset' c eL' eR' mL' mR' L ML MR.
  apply sane_app in H. destruct H as (H1 & H2). fold (w_after ieee nL nR h) in H2. fold w in H2.
  assert (I : sound w) by (apply after_sound; auto; apply sound_new).
  destruct (call_sound P nL nR w again HN I H2) as (I' & (U1 & U2) & LD). fold w' in I'. destruct I' as (_ & TL & TR).
  destruct H2 as (X & NL & NR). destruct I as ((calls & FA & ES) & I2 & I3).
  assert (Fi : fin (x_init x) = true /\ fin (x_tend x) = true /\ resolves (f2r (wf_set w q_period)) (f2r (x_tend x))) by (destruct X as ((B & X) & _); repeat split; apply X).
  destruct Fi as (Fi & Fe & Hr).
  destruct (ready_landed P (o_again (x_geo x)) (x_init x) reset k eL eR mL mR (wf_left w) (wf_right w) l r (fin_number _ Fi) I2 I3 NL NR ER) as (a & b & -> & -> & La & Lb).
  pose proof (ready_ok P (o_again (x_geo x)) (x_init x) reset k eL eR mL mR (wf_left w) (wf_right w) I2 I3 NL NR) as RO. rewrite ER in RO. destruct RO as (Ta & Tb & _).
  assert (LAND : landed (x_init x) w').
  { subst w' again. cbn [w_call] in *. rewrite ER in *. unfold w_plan in *.
    assert (RS : t_plan ieee (w_cfg x w) (x_geo x) (x_fuel x) [a] [b] = TFail \/ t_plan ieee (w_cfg x w) (x_geo x) (x_fuel x) [a] [b] = TFuel ->
      landed (x_init x) (w_rest ieee x w [a] [b])).
    { intros T. unfold w_rest. unfold w_cfg in *.
      assert (TM : List.Forall tame calls) by (eapply List.Forall_impl; [apply finite_tame|exact FA]).
      assert (OS : exists nl nr, t_rest ieee (cfg64 (wf_set w) (x_init x) (x_tend x) (x_term x) (x_rfoot x) (wf_start w)) (x_geo x) (x_fuel x) [a] [b] = ([a] ++ nl, [b] ++ nr)).
      { rewrite ES in *. apply (rest_prefix P (x_geo x) calls (x_init x) (x_tend x) (x_term x) (x_rfoot x) (wf_start w) [a] [b] (x_fuel x) TM Fi Fe Hr Ta Tb T). }
      destruct OS as (nl & nr & OS). unfold cfg64 in OS. cbv zeta. rewrite OS. split; [exists a|exists b]; cbn; auto. }
    unfold w_cfg in RS. cbv zeta in RS.
    destruct (t_plan ieee _ _ _ [a] [b]) as [l' r' sw sl| | |] eqn:EP; cbn [fst snd] in *; [|apply RS; auto|congruence|apply RS; auto].
    destruct (n_generate _ _ _ _ _ _ _ _) as [(ord & ph)| |]; [|congruence|congruence]. apply (LD ord ph (x_init x)); reflexivity. }
  destruct LAND as ((y & Y1 & Y2) & (z & Z1 & Z2)).
  assert (LE : forall z w : f64, le64 z w -> le64 w init -> le64 z init).
  { intros u v A1 A2. destruct (le64_number _ _ A1), (le64_number _ _ A2). apply le64_inv in A1. apply le64_inv in A2. apply le64_key; auto. lra. }
  pose proof (ready_ok P ag init reset' c eL' eR' mL' mR' (wf_left w') (wf_right w') TL TR) as RO.
  destruct (t_ready ieee ag _ _ _ _ _ _ _ _ _) as ((l & r) & ok).
  destruct RO as (_ & _ & R1 & R2); [intros K; apply ML in K; apply le64_number in K; tauto|intros K; apply MR in K; apply le64_number in K; tauto|].
  rewrite R2 in *; eauto. destruct R1 as (u & v & -> & ->); eauto.
Qed.
Print Assumptions C99_continues_after_failure.

(** ** A session: settings, a plan of six seconds from rest, a new plan from the third second on. *)
Fixpoint put (x : nstep f64) (l : list (nstep f64)) : list (nstep f64) :=
  match l with [] => [x] | y :: r => if Bltb (n_time y) (n_time x) then y :: put x r else x :: l end.
Lemma put_in : forall x l, Permutation (put x l) (x :: l).
Proof.
  induction l as [|y l IH]; [apply Permutation_refl|]. cbn [put]. destruct (Bltb _ _); [|apply Permutation_refl].
  apply Permutation_trans with (y :: x :: l); [apply perm_skip; auto|apply perm_swap].
Qed.
Lemma put_sorts : sorts (fold_right put []).
Proof.
  intros m. induction m as [|x m IH]; intros F; [split; constructor|]. destruct IH as (IP & IS); [intros; apply F; right; auto|].
  cbn [fold_right]. split; [apply Permutation_trans with (2 := perm_skip x IP); apply put_in|].
  assert (K : forall a b : nstep f64, In a (x :: m) -> In b (x :: m) -> (Bltb (n_time b) (n_time a) = false <-> f2r (n_time a) <= f2r (n_time b))).
  { intros a b Ha Hb. apply F in Ha. apply F in Hb. rewrite blt_key by (apply fin_number; auto). rewrite !key_fin by auto.
    rcases; split; intros; lra || congruence. }
  assert (J : forall a, In a (fold_right put [] m) -> In a (x :: m)) by (intros a Ha; right; apply (Permutation_in _ IP); auto).
  clear IP F. revert IS J. generalize (fold_right put [] m). intros l.
  induction l as [|y l IHl]; intros IS J; cbn [put]; [repeat constructor|]. apply StronglySorted_inv in IS. destruct IS as (S1 & S2).
  destruct (Bltb (n_time y) (n_time x)) eqn:L.
  - apply SSorted_cons; [apply IHl; auto; intros; apply J; right; auto|]. rewrite List.Forall_forall in S2 |- *. intros z Hz.
    apply (Permutation_in _ (put_in x l)) in Hz. destruct Hz as [<-|Hz]; [|apply S2; auto].
    apply K; [apply J; left; auto|left; auto|]. apply Rnot_lt_le. intros C. assert (C2 : f2r (n_time x) <= f2r (n_time y)) by lra.
    apply (K x y) in C2; [congruence|left; auto|apply J; left; auto].
  - apply SSorted_cons; [apply SSorted_cons; auto|]. constructor; auto. rewrite List.Forall_forall in S2 |- *. intros z Hz. specialize (S2 z Hz).
    apply K in S2; [|apply J; left; auto|apply J; right; auto]. apply K in L; [|left; auto|apply J; left; auto].
    apply K; [left; auto|apply J; right; auto|lra].
Qed.

Definition demo_args (init tend : f64) : wargs f64 unit :=
  MkWA some_geo 40 init tend (fmake 1 (-2)) true true false (fold_right put []).
Definition demo : list (wcall f64 unit) :=
  map WSet plan_calls ++ [WGen (demo_args fzero (fmake 6 0)); WRe (demo_args (fmake 3 0) (fmake 9 0)) false CNone (fun p => p) (fun p => p) fzero fzero].
Lemma demo_fit : forall init tend, fin init = true -> fin tend = true -> f2r tend <= 9 -> fit (settings ieee plan_calls) (demo_args init tend).
Proof.
  intros init tend Fi Fe HE. destruct C88_example as (_ & _ & HR & H4 & H5 & H6 & H7 & H8 & H9 & H10).
  destruct (fmake_exact 2) as (_ & V2); [lia|]. assert (P2 : settings ieee plan_calls q_nomT = fmake 2 0) by (apply same_f64; vm_compute; reflexivity).
  assert (P4 : settings ieee plan_calls q_period = fmake 1 (-2)) by (apply same_f64; vm_compute; reflexivity).
  split; [|apply put_sorts]. exists 16. unfold fits. cbn [demo_args x_init x_tend x_dT].
  split; [auto|]. split; [auto|]. split; [vm_compute; reflexivity|].
  split; [rewrite P4, quarter; unfold resolves; change (bpow radix2 (-52)) with (/ 4503599627370496); lra|].
  repeat (split; [assumption|]). split; [rewrite P2, V2; lra|]. auto.
Qed.
Example C89_example : sane "left" "right" (w_new ieee) demo.
Proof.
  unfold demo, plan_calls. cbn [map app sane]. destruct C88_example as (FA & _). unfold plan_calls in FA. inversion FA as [|? ? A1 A2]; subst. inversion A2 as [|? ? A3 A4]; subst.
  split; [exact A1|]. split; [exact A3|].
  set (w2 := fst (w_call ieee _ _ _ (WSet (sPeriod _)))).
  assert (S2 : wf_set w2 = settings ieee plan_calls) by reflexivity.
  destruct (fmake_exact 6) as (F6 & V6); [lia|]. destruct (fmake_exact 9) as (F9 & V9); [lia|]. destruct (fmake_exact 3) as (F3 & V3); [lia|].
  split; [cbn [sane_call]; split; [left; split; reflexivity|rewrite S2; apply demo_fit; auto; lra]|].
  split; [|exact Logic.I]. cbn [sane_call corr_left corr_right]. split; [|split; discriminate].
  assert (S3 : wf_set (fst (w_call ieee "left" "right" w2 (WGen (demo_args fzero (fmake 6 0))))) = settings ieee plan_calls).
  { rewrite <- S2. cbn [w_call]. unfold w_plan. destruct (t_plan _ _ _ _ _ _); reflexivity. }
  rewrite S3. apply demo_fit; auto. lra.
Qed.
(** The second plan is made and its steps follow the ones that had landed. *)
Definition demo_times : option (list f64 * list f64) :=
  let w := w_after ieee "left" "right" demo in Some (map snd (wf_left w), map snd (wf_right w)).
Example C89_times_example : same_times demo_times [fmake 3 0; fmake 35 (-2); fmake 51 (-2)] [fzero; fmake 6 0; fmake 43 (-2)] = true.
Proof. vm_compute. reflexivity. Qed.
(** A second call whose planner loses the unicycle after four seconds: it fails, and a third call finds both feet. *)
Definition lost_args : wargs f64 unit := MkWA lost_geo 40 (fmake 3 0) (fmake 9 0) (fmake 1 (-2)) true true false (fold_right put []).
Example C99_continues_example : let h := map WSet plan_calls ++ [WGen (demo_args fzero (fmake 6 0))] in let w := w_after ieee "left" "right" h in
  let again := WRe lost_args false CNone (fun p => p) (fun p => p) fzero fzero in
  sane "left" "right" (w_new ieee) (h ++ [again])
  /\ snd (t_ready ieee (fun _ x => x) (fmake 3 0) false CNone (fun p => p) (fun p => p) fzero fzero (wf_left w) (wf_right w)) = true
  /\ (match snd (w_call ieee "left" "right" w again) with WNoPlan => true | _ => false end = true)
  /\ let w' := fst (w_call ieee "left" "right" w again) in
     same_times (Some (map snd (wf_left w'), map snd (wf_right w'))) [fmake 3 0] [fzero] = true.
Proof.
  cbv zeta. split; [|split; [vm_compute; reflexivity|split; [vm_compute; reflexivity|vm_compute; reflexivity]]].
  pose proof C89_example as H. unfold demo, plan_calls in *. cbn [map app sane] in *. destruct H as (A1 & A2 & A3 & (A4 & A5 & A6) & _).
  split; [exact A1|]. split; [exact A2|]. split; [exact A3|]. split; [|exact Logic.I].
  split; [exact A4|]. split; assumption.
Qed.
