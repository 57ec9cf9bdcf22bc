(** Properties C59 and C60: several threads. *)
From Coq Require Import String Reals Lra Lia List Bool Arith.
From Verif Require Import Prelude EvalTac FootPrint GenPhases GenSpec Properties_Generator FeetTraj FeetProofs3 ZMP CoMHeight DCM DCMProofs6 Properties_DCM Generator GeneratorProofs Properties_Whole
  Threads ThreadsSpec ThreadsProofs GenThreads.
Import ListNotations.

(** ** C59 *)
(** Whatever the threads call and however they are scheduled, as long as some call has not returned some thread can go on. *)
Theorem C59_no_deadlock : forall progs s0 s, begins progs s0 -> reach s0 s -> all_returned s \/ exists i s', move i s s'.
Proof.
  intros progs s0 s B R. destruct (reach_inv2 _ _ R _ (begins_inv2 _ _ B)) as (hs & I). exact (inv2_progress _ _ I).
Qed.
(** Every schedule is finite, and it can only stop when all calls have returned, with all mutexes released. *)
Theorem C59_all_calls_return : forall progs s0 s, begins progs s0 -> reach s0 s ->
  (forall i s', move i s s' -> remaining s = S (remaining s'))
  /\ ((forall i s', ~ move i s s') -> all_returned s /\ forall m, owner s m = None)
  /\ exists s', reach s s' /\ all_returned s' /\ forall m, owner s' m = None.
Proof.
  intros progs s0 s B R.
  assert (F : forall s, reach s0 s -> all_returned s -> forall m, owner s m = None).
  { intros x Rx A m. destruct (reach_inv2 _ _ Rx _ (begins_inv2 _ _ B)) as (hs & [[L D O] _]).
    destruct (owner x m) as [i|] eqn:E; [|reflexivity]. destruct (proj1 (O m i) E) as (h & Hh & Hm).
    destruct (nth_len _ _ (todo x) hs i _ (eq_sym L) Hh) as (t & Ht).
    exfalso. apply (disc_nodup _ _ (D _ _ _ Hh Ht) m Hm). unfold all_returned in A. rewrite Forall_forall in A.
    apply A. eapply nth_error_In, Ht. }
  split; [|split].
  - intros i s' M. eapply move_remaining, M.
  - intros N. destruct (C59_no_deadlock _ _ _ B R) as [A|(i & s' & M)]; [|destruct (N _ _ M)]. split; [exact A|apply F; assumption].
  - remember (remaining s) as n eqn:En. revert s R En. induction n as [|n IH]; intros s R En.
    + destruct (C59_no_deadlock _ _ _ B R) as [A|(i & s' & M)]; [|apply move_remaining in M; lia].
      exists s. split; [constructor|]. split; [exact A|apply F; assumption].
    + destruct (C59_no_deadlock _ _ _ B R) as [A|(i & s' & M)].
      * exists s. split; [constructor|]. split; [exact A|apply F; assumption].
      * assert (Rs : reach s0 s') by (eapply reach_trans; [exact R|]; econstructor; [exact M|constructor]).
        pose proof (move_remaining _ _ _ M) as Q. destruct (IH s' Rs ltac:(lia)) as (z & Rz & Z). exists z. split; [|exact Z]. econstructor; eassumption.
Qed.
(** No thread ever waits for a mutex it holds, nor releases one it does not hold (both undefined for std::mutex). *)
Theorem C59_mutexes_used_properly : forall progs s0 s, begins progs s0 -> reach s0 s -> ~ self_blocked s /\ ~ foreign_unlock s.
Proof.
  intros progs s0 s B R. destruct (reach_inv2 _ _ R _ (begins_inv2 _ _ B)) as (hs & [[L D O] _]). split.
  - intros (i & m & t & N & E). destruct (proj1 (O m i) E) as (h & Hh & Hm). pose proof (D _ _ _ Hh N) as Q. inversion Q; subst.
    match goal with K : forall x, In x h -> _ |- _ => specialize (K _ Hm) end. lia.
  - intros (i & m & t & N & E). destruct (nth_len _ _ hs _ i _ L N) as (h & Hh). pose proof (D _ _ _ Hh N) as Q. inversion Q; subst.
    apply E, O. eexists. split; [exact Hh|now left].
Qed.
(** The hypotheses are met by threads that really compete: one generates while another, which uses the DCM generator and
    then the planner, is in a state where it must wait. *)
Example C59_example : exists s0 s t u, begins [[GReGenerate]; [DSetInitial; PSet]] s0 /\ reach s0 s /\
  todo s = [AUnlock MDcm :: t; ALock MDcm :: u] /\ owner s MGen = Some 0%nat /\ owner s MDcm = Some 0%nat /\ t <> [] /\ u <> [].
Proof.
  set (t := [ARd CDcmInit; ALock MPlan; AWr CSteps; AUnlock MPlan; AUnlock MGen]).
  set (u := [AWr CDcmInit; AUnlock MDcm; ALock MPlan; AWr CPlan; AUnlock MPlan]).
  exists (start [ALock MGen :: ALock MDcm :: AUnlock MDcm :: t; ALock MDcm :: u]). eexists. exists t, u. split; [|split].
  - split; [reflexivity|]. cbn. constructor; [|constructor; [|constructor]].
    + change (ALock MGen :: ALock MDcm :: AUnlock MDcm :: t)
        with ((ALock MGen :: (ALock MDcm :: [] ++ AUnlock MDcm :: ARd CDcmInit :: ALock MPlan :: [AWr CSteps] ++ AUnlock MPlan :: []) ++ AUnlock MGen :: []) ++ []).
      constructor; [|constructor]. cbn [body]. apply runs_hold; [|apply runs_end]. cbn [app plan_steps].
      do 4 apply runs_skip. apply (runs_hold MDcm [] _ [] _); [apply runs_end|]. apply runs_rd, runs_skip. apply (runs_hold MPlan _ _ [AWr CSteps] []); [|apply runs_end]. do 6 apply runs_skip. apply runs_wr, runs_end.
    + change (ALock MDcm :: u) with ((ALock MDcm :: [AWr CDcmInit] ++ AUnlock MDcm :: []) ++ (ALock MPlan :: [AWr CPlan] ++ AUnlock MPlan :: []) ++ []).
      constructor; [|constructor; [|constructor]]; cbn [body]; (apply runs_hold; [|apply runs_end]).
      * apply runs_wr, runs_end.
      * apply runs_skip, runs_wr, runs_end.
  - eapply (reach_step _ 0); [econstructor; reflexivity|]. eapply (reach_step _ 0); [econstructor; reflexivity|]. constructor.
  - repeat split; discriminate.
Qed.
Print Assumptions C59_no_deadlock.
Print Assumptions C59_all_calls_return.
Print Assumptions C59_mutexes_used_properly.

(** ** C60 *)
(** All accesses of a body, computed. *)
Fixpoint stmt_accs (h : list mutex) (s : stmt) : list (cell * bool * list mutex) :=
  match s with
  | Rd c => [(c, false, h)]
  | Wr c => [(c, true, h)]
  | Hold m b => (fix go (l : list stmt) := match l with [] => [] | s :: r => stmt_accs (m :: h) s ++ go r end) b
  end.
Definition accs (h : list mutex) (b : list stmt) : list (cell * bool * list mutex) := flat_map (stmt_accs h) b.
Lemma stmt_accs_hold : forall h m b, stmt_accs h (Hold m b) = accs (m :: h) b.
Proof. reflexivity. Qed.
Lemma accesses_accs : forall h b c w hs, accesses h b c w hs -> In (c, w, hs) (accs h b).
Proof.
  induction 1 as [h c b|h c b|h m b b' c w hs A IH|h s b c w hs A IH]; unfold accs; cbn [flat_map stmt_accs].
  - now left.
  - now left.
  - apply in_or_app. left. exact IH.
  - apply in_or_app. right. exact IH.
Qed.
Fixpoint depth (s : stmt) : nat :=
  match s with Hold _ b => S ((fix go (l : list stmt) := match l with [] => O | s :: r => Nat.max (depth s) (go r) end) b) | _ => O end.
Definition depths (b : list stmt) : nat := fold_right (fun s n => Nat.max (depth s) n) O b.
Lemma accs_accesses : forall n b, (depths b <= n)%nat -> forall h c w hs, In (c, w, hs) (accs h b) -> accesses h b c w hs.
Proof.
  induction n as [|n IHn]; induction b as [|s b IHb]; intros Dp h c w hs I; try destruct I; unfold accs in I; cbn [flat_map] in I; apply in_app_or in I;
    cbn [depths fold_right] in Dp; fold (depths b) in Dp; (destruct I as [I|I]; [|apply acc_next, IHb; [lia|exact I]]).
  - destruct s as [c0|c0|m b0]; cbn [depth] in Dp; [| |lia]; destruct I as [I|[]]; injection I as <- <- <-; constructor.
  - destruct s as [c0|c0|m b0]; [destruct I as [I|[]]; injection I as <- <- <-; constructor..|].
    apply acc_in, IHn; [|exact I]. change (depth (Hold m b0)) with (S (depths b0)) in Dp. lia.
Qed.
Lemma accesses_iff : forall h b c w hs, accesses h b c w hs <-> In (c, w, hs) (accs h b).
Proof. intros. split; [apply accesses_accs|apply (accs_accesses (depths b)); auto]. Qed.
Definition holds (m : mutex) (h : list mutex) : bool := existsb (mutex_eqb m) h.
Lemma holds_in : forall m h, holds m h = true <-> In m h.
Proof.
  intros m h. unfold holds. rewrite existsb_exists. split.
  - intros (x & I & E). apply mutex_eqb_eq in E. now subst.
  - intros I. exists m. split; [exact I|apply mutex_eqb_refl].
Qed.
Definition protected_b (a : api) : bool := forallb (fun x => holds (guard_of (fst (fst x))) (snd x)) (accs [] (body a)).
Lemma protected_iff : forall a, protected a <-> protected_b a = true.
Proof.
  intros a. unfold protected, protected_b. rewrite forallb_forall. split.
  - intros H [[c w] h] I. cbn. apply holds_in. apply (H c w h). apply accesses_iff, I.
  - intros H c w h A. apply holds_in. apply (H (c, w, h)). apply accesses_iff, A.
Qed.
Definition clash (x y : cell * bool * list mutex) : bool :=
  cell_eqb (fst (fst x)) (fst (fst y)) && (snd (fst x) || snd (fst y)) && negb (existsb (fun m => holds m (snd y)) (snd x)).
Definition compatible_b (a b : api) : bool := negb (existsb (fun x => existsb (clash x) (accs [] (body b))) (accs [] (body a))).
Lemma cell_eqb_eq : forall a b, cell_eqb a b = true <-> a = b.
Proof. destruct a, b; cbn; split; congruence. Qed.
Lemma clash_true : forall c w h c' w' h', clash (c, w, h) (c', w', h') = true <-> c = c' /\ (w = true \/ w' = true) /\ forall m, In m h -> ~ In m h'.
Proof.
  intros. unfold clash. cbn [fst snd]. rewrite !andb_true_iff, orb_true_iff, negb_true_iff, cell_eqb_eq. split.
  - intros [[A B] C]. repeat split; auto. intros m I J. assert (existsb (fun m => holds m h') h = true); [|congruence].
    apply existsb_exists. exists m. split; [exact I|apply holds_in, J].
  - intros (A & B & C). repeat split; auto. destruct (existsb _ h) eqn:E; [|reflexivity]. apply existsb_exists in E.
    destruct E as (m & I & J). apply holds_in in J. destruct (C _ I J).
Qed.
Lemma not_compatible : forall a b, compatible_b a b = false ->
  exists c w1 w2 h1 h2, accesses [] (body a) c w1 h1 /\ accesses [] (body b) c w2 h2 /\ (w1 = true \/ w2 = true) /\ forall m, In m h1 -> ~ In m h2.
Proof.
  intros a b H. unfold compatible_b in H. apply negb_false_iff, existsb_exists in H. destruct H as ([[c w1] h1] & I & H).
  apply existsb_exists in H. destruct H as ([[c' w2] h2] & J & H). apply clash_true in H. destruct H as (-> & W & X).
  exists c', w1, w2, h1, h2. repeat split; [apply accesses_iff, I|apply accesses_iff, J|exact W|exact X].
Qed.
Lemma compatible_iff : forall a b, compatible a b <-> compatible_b a b = true.
Proof.
  intros a b. split.
  - intros H. destruct (compatible_b a b) eqn:E; [reflexivity|]. destruct (not_compatible _ _ E) as (c & w1 & w2 & h1 & h2 & A & B & W & X).
    destruct (H _ _ _ _ _ A B W) as (m & I & J). destruct (X _ I J).
  - intros H c w1 w2 h1 h2 A B W. unfold compatible_b in H. apply negb_true_iff in H.
    destruct (existsb (fun m => holds m h2) h1) eqn:E.
    + apply existsb_exists in E. destruct E as (m & I & J). apply holds_in in J. eauto.
    + assert (K : existsb (fun x => existsb (clash x) (accs [] (body b))) (accs [] (body a)) = true); [|congruence].
      apply existsb_exists. exists (c, w1, h1). split; [apply accesses_iff, A|]. apply existsb_exists. exists (c, w2, h2).
      split; [apply accesses_iff, B|]. unfold clash. cbn [fst snd]. rewrite E. rewrite (proj2 (cell_eqb_eq c c) eq_refl). destruct W as [->| ->]; cbn; auto. now rewrite orb_true_r.
Qed.

(** "No public method accesses shared data without holding the lock" fails, exactly for these. *)
Theorem C60_unlocked_methods_refuted : forall a, ~ protected a <->
  In a [GFootPointers; GGenerate; GReGenerate; GSetPauseActive; GSetMergeRatio; GSetNavigationPath; PComputeNewStepsShared;
        PStartWithLeft; PSetNavigationPath; DGetInitial; DGetReference; FRead; FWrite].
Proof.
  intros a. rewrite protected_iff. destruct a; cbn; split; try tauto; intros H; try (now exfalso; apply H);
    try discriminate; repeat destruct H as [H|H]; try discriminate H; try contradiction.
Qed.
(** Two threads race exactly when their calls are incompatible. *)
Theorem C60_race_iff_incompatible : forall a b, race_free [[a]; [b]] <-> compatible a b.
Proof.
  intros a b. split.
  - intros F. apply compatible_iff. destruct (compatible_b a b) eqn:E; [reflexivity|].
    destruct (not_compatible _ _ E) as (c & w1 & w2 & h1 & h2 & A & B & W & X). destruct (incompatible_race _ _ _ _ _ _ _ A B W X F).
  - intros C. apply compatible_no_race. intros i j p q x y NE Hp Hq Ix Iy.
    destruct i as [|[|[|i]]], j as [|[|[|j]]]; cbn in Hp, Hq; try discriminate; try congruence;
      injection Hp as <-; injection Hq as <-; destruct Ix as [<-|[]]; destruct Iy as [<-|[]]; [exact C|].
    intros c w1 w2 h1 h2 A B W. destruct (C c w2 w1 h2 h1 B A ltac:(tauto)) as (m & I & J). eauto.
Qed.
(** Among the pairs that race: changing the pause or merge settings, or a path, while generating; two threads generating;
    setting the DCM initial state while re-generating; reading through the references of the DCM generator's getters. *)
Theorem C60_races_refuted : forall a b,
  In (a, b) [(GGenerate, GSetPauseActive); (GFromFootPrints, GSetMergeRatio); (GGenerate, GSetNavigationPath); (GGenerate, GGenerate);
             (GReGenerate, GFromFootPrints); (GReGenerate, DSetInitial); (DGetReference, GGenerate); (GGenerate, PStartWithLeft);
             (GGenerate, FRead); (GFromFootPrints, PComputeNewStepsShared)] -> ~ race_free [[a]; [b]].
Proof.
  intros a b I. rewrite C60_race_iff_incompatible, compatible_iff. repeat (destruct I as [I|I]; [injection I as <- <-; cbn; discriminate|]). destruct I.
Qed.
(** Any number of threads that keep to the methods with protected accesses never race. *)
Theorem C60_no_race_partial : forall progs, (forall p a, In p progs -> In a p -> protected a) -> race_free progs.
Proof.
  intros progs P. apply compatible_no_race. intros i j p q a b NE Hp Hq Ia Ib c w1 w2 h1 h2 A B W. exists (guard_of c).
  split; [eapply P; [eapply nth_error_In, Hp|exact Ia|exact A]|eapply P; [eapply nth_error_In, Hq|exact Ib|exact B]].
Qed.
(** One thread may also generate and re-generate, change any setting and read any result, provided the other threads keep to protected methods
    other than generateFromFootPrints and setDCMInitialState and the DCM references are not held across generations.  Missing:
    the rest, where there are races (above). *)
Definition of_generating_thread (a : api) : Prop :=
  protected a \/ In a [GFootPointers; GGenerate; GReGenerate; GSetPauseActive; GSetMergeRatio; FRead].
Definition of_other_thread (a : api) : Prop := protected a /\ a <> GFromFootPrints /\ a <> DSetInitial.
Theorem C60_one_generating_thread_partial : forall n progs,
  (forall i p a, nth_error progs i = Some p -> In a p -> if Nat.eqb i n then of_generating_thread a else of_other_thread a) -> race_free progs.
Proof.
  intros n progs P. apply compatible_no_race. intros i j p q a b NE Hp Hq Ia Ib.
  pose proof (P _ _ _ Hp Ia) as A. pose proof (P _ _ _ Hq Ib) as B. rewrite compatible_iff.
  unfold of_generating_thread, of_other_thread in *.
  destruct (Nat.eqb_spec i n), (Nat.eqb_spec j n); [congruence| | |]; rewrite protected_iff in A, B.
  - destruct A as [A|A]; destruct B as (B & B1 & B2).
    + destruct a; try discriminate A; destruct b; try discriminate B; try congruence; reflexivity.
    + destruct b; try discriminate B; try congruence; repeat (destruct A as [<-|A]; [reflexivity|]); destruct A.
  - destruct B as [B|B]; destruct A as (A & A1 & A2).
    + destruct a; try discriminate A; try congruence; destruct b; try discriminate B; reflexivity.
    + destruct a; try discriminate A; try congruence; repeat (destruct B as [<-|B]; [reflexivity|]); destruct B.
  - destruct A as (A & _), B as (B & _). destruct a; try discriminate A; destruct b; try discriminate B; reflexivity.
Qed.
Example C60_threads_example : race_free [[PSet; ZSet; GGetPhases]; [GAddPlugin; GGenerate; GReGenerate; FRead; GSetPauseActive]; [DGetWeights; JerkSet; PComputeNewSteps]].
Proof.
  apply (C60_one_generating_thread_partial 1). intros i p a H I. destruct i as [|[|[|i]]]; cbn in H; try discriminate; [injection H as <-..|destruct i; discriminate].
  - cbn [Nat.eqb]. unfold of_other_thread. repeat (destruct I as [<-|I]; [rewrite protected_iff; split; [reflexivity|split; discriminate]|]). destruct I.
  - cbn [Nat.eqb]. unfold of_generating_thread. repeat (destruct I as [<-|I]; [rewrite protected_iff; cbn; auto 10|]). destruct I.
  - cbn [Nat.eqb]. unfold of_other_thread. repeat (destruct I as [<-|I]; [rewrite protected_iff; split; [reflexivity|split; discriminate]|]). destruct I.
Qed.
Print Assumptions C60_unlocked_methods_refuted.
Print Assumptions C60_race_iff_incompatible.
Print Assumptions C60_races_refuted.
Print Assumptions C60_no_race_partial.
Print Assumptions C60_one_generating_thread_partial.

(** "The trajectory is computed from the foot prints planned by that same call" fails: while one thread is between planning
    and generating, another one generates from its own foot prints, and the first then does so too, from the wrong ones. *)
Open Scope R_scope.
Theorem C60_own_plan_refuted : forall spl hspl fspl plan, (forall l r, plan l r 0 10 = (stepL, stepR, true)) ->
  exists s, greach spl hspl fspl (gstart [[KGen plan 0 (1/2) 10 []]; [KFrom lrL lrR 0 (1/2) []]]) s
  /\ gs_log s = [(0%nat, (stepL, stepR), (lrL, lrR))] /\ gs_tasks s = [Idle []; Idle []]
  /\ exists out, gn_ph (gs_gen s) = Have out /\ generate_phases gset_new lrL lrR 0 (1/2) lrSrt = Ok out.
Proof.
  intros spl hspl fspl plan P.
  assert (G : forall g, gn_set g = gset_new -> gn_feet g = None -> gn_zmp g = None -> gn_dcm g = None -> gn_com g = None -> gn_cub g = None ->
          exists out, generate_phases gset_new lrL lrR 0 (1/2) lrSrt = Ok out
          /\ generate_from spl hspl fspl g lrL lrR 0 (1/2) lrSrt = (with_ph (Have out) (with_fps lrL lrR g), Done)).
  { intros g E1 E2 E3 E4 E5 E6. destruct (lr_from spl hspl fspl) as (out & Q & E). exists out. split; [exact Q|].
    destruct g as [se l r f z d h a b c e i j k]. cbn in E1, E2, E3, E4, E5, E6. subst.
    unfold generate_from in E |- *. cbn [with_fps gn_set gen_new] in E |- *.
    destruct (gen_checks lrL lrR 0 (1/2)); [|discriminate E]. cbn [negb] in E |- *. change gset_new with (settings_after []). rewrite Q. reflexivity. }
  destruct (G (with_fps stepL stepR gen_new)) as (out & Q & E); try reflexivity.
  destruct (G (with_ph (Have out) (with_fps lrL lrR (with_fps stepL stepR gen_new)))) as (out' & Q' & E'); try reflexivity.
  eexists. split; [|split; [|split]].
  - eapply (greach_step _ _ _ _ 0). { eapply gm_plan; [reflexivity|]. apply P. }
    eapply (greach_step _ _ _ _ 1). { eapply gm_from; [reflexivity|exact lr_sort]. }
    rewrite E. cbn [fst set_nth].
    eapply (greach_step _ _ _ _ 0). { eapply gm_window; [reflexivity|exact lr_sort]. }
    constructor.
  - reflexivity.
  - reflexivity.
  - exists out'. split; [|exact Q']. change (gn_left (with_ph (Have out) (with_fps lrL lrR (with_fps stepL stepR gen_new)))) with lrL.
    change (gn_right (with_ph (Have out) (with_fps lrL lrR (with_fps stepL stepR gen_new)))) with lrR. cbn [gs_gen]. rewrite E'. reflexivity.
Qed.

(** With a single generating thread (the others only configure) every trajectory is made from the foot prints of its own plan.
    Missing: several generating threads, where it is false. *)
Definition only_configures (t : task) : Prop := exists cs, t = Idle cs /\ List.Forall (fun c => exists e, c = KCfg e) cs.
Lemma cfg_keeps_fps : forall g e, gn_left (gn_call g e) = gn_left g /\ gn_right (gn_call g e) = gn_right g.
Proof. intros [se l r f z d h a b c x i] e. destruct e; cbn; auto. Qed.
Theorem C60_single_generator_partial : forall spl hspl fspl n progs s,
  (forall i p c, nth_error progs i = Some p -> In c p -> i <> n -> exists e, c = KCfg e) ->
  greach spl hspl fspl (gstart progs) s -> forall i planned used, In (i, planned, used) (gs_log s) -> i = n /\ planned = used.
Proof.
  intros spl hspl fspl n progs s P R.
  assert (K : forall s0 s, greach spl hspl fspl s0 s ->
    (forall i t, nth_error (gs_tasks s0) i = Some t -> i <> n -> only_configures t) ->
    (forall l r init dT cs, nth_error (gs_tasks s0) n = Some (Window l r init dT cs) -> gn_left (gs_gen s0) = l /\ gn_right (gs_gen s0) = r) ->
    (forall i planned used, In (i, planned, used) (gs_log s0) -> i = n /\ planned = used) ->
    forall i planned used, In (i, planned, used) (gs_log s) -> i = n /\ planned = used).
  { clear. induction 1 as [s|s i s' s'' M R IH]; intros Oth Win Log; [exact Log|].
    apply IH; clear IH R.
    - intros j t H NE. destruct M; cbn [gs_tasks gs_gen gs_log] in *; (destruct (Nat.eq_dec i j) as [<-|Nij];
        [|rewrite set_nth_other in H by exact Nij; eapply Oth; eassumption]);
        (match goal with K : nth_error ?l i = Some ?x |- _ =>
           lazymatch x with t => fail | _ => rewrite (set_nth_same _ _ _ _ _ K) in H; destruct (Oth _ _ K NE) as (cs' & E & F) end end);
        try discriminate E; injection E as <-; inversion F as [|? ? (e' & X) F']; subst; try discriminate X.
      injection H as <-. exists cs. split; [reflexivity|exact F'].
    - intros l0 r0 init0 dT0 cs0 H. destruct M; cbn in *.
      + destruct (cfg_keeps_fps g e) as [-> ->]. destruct (Nat.eq_dec i n) as [->|Nin].
        * erewrite set_nth_same in H by eassumption. discriminate.
        * rewrite set_nth_other in H by exact Nin. eapply Win, H.
      + destruct (Nat.eq_dec i n) as [->|Nin].
        * erewrite set_nth_same in H by eassumption. discriminate.
        * destruct (Oth _ _ H0 Nin) as (cs' & E & F). injection E as <-. inversion F as [|? ? (e' & X) F']. discriminate X.
      + destruct (Nat.eq_dec i n) as [->|Nin].
        * erewrite set_nth_same in H by eassumption. destruct ok; [|discriminate]. injection H as <- <- <- <- <-. destruct g; auto.
        * destruct (Oth _ _ H0 Nin) as (cs' & E & F). injection E as <-. inversion F as [|? ? (e' & X) F']. discriminate X.
      + destruct (Nat.eq_dec i n) as [->|Nin].
        * erewrite set_nth_same in H by eassumption. destruct ok; [|discriminate]. injection H as <- <- <- <- <-. auto.
        * destruct (Oth _ _ H0 Nin) as (cs' & E & F). injection E as <-. inversion F as [|? ? (e' & X) F']. discriminate X.
      + destruct (Nat.eq_dec i n) as [->|Nin].
        * erewrite set_nth_same in H by eassumption. discriminate.
        * destruct (Oth _ _ H0 Nin) as (cs' & E & F). discriminate E.
    - intros j pl us I. destruct M; cbn in *; try (eapply Log; exact I).
      destruct I as [I|I]; [|eapply Log; exact I]. injection I as <- <- <-.
      destruct (Nat.eq_dec i n) as [->|Nin].
      * split; [reflexivity|]. destruct (Win _ _ _ _ _ H) as [-> ->]. reflexivity.
      * destruct (Oth _ _ H Nin) as (cs' & E & F). discriminate E. }
  apply (K _ _ R).
  - intros i t H NE. cbn in H. rewrite nth_error_map in H. destruct (nth_error progs i) as [p|] eqn:Q; [|discriminate]. cbn in H. injection H as <-.
    exists p. split; [reflexivity|]. apply Forall_forall. intros c I. eapply P; eassumption.
  - intros l r init dT cs H. cbn in H. rewrite nth_error_map in H. destruct (nth_error progs n); discriminate.
  - intros i pl us [].
Qed.
Example C60_plan_example : forall spl hspl fspl, exists plan s,
  greach spl hspl fspl (gstart [[KGen plan 0 1 10 []]; [KCfg GAddZmp]]) s /\ gs_log s = [(0%nat, (stepL, stepR), (stepL, stepR))].
Proof.
  intros spl hspl fspl. exists (fun _ _ _ _ => (stepL, stepR, true)). eexists. split.
  - eapply (greach_step _ _ _ _ 0). { eapply gm_plan; reflexivity. }
    eapply (greach_step _ _ _ _ 1). { eapply gm_cfg; reflexivity. }
    eapply (greach_step _ _ _ _ 0). { eapply gm_window; [reflexivity|exact step_sort]. }
    constructor.
  - reflexivity.
Qed.
Print Assumptions C60_own_plan_refuted.
Print Assumptions C60_single_generator_partial.
