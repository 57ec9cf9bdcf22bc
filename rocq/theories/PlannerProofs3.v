(** Proofs: initialisation of a planning call, termination, optimality of the landing time. *)
From Coq Require Import Reals Lra Lia String List Bool.
From Verif Require Import Prelude FootPrint FootPrintSpec FootPrintProofs UnicycleFoot Ellipse Optimization PlannerSearch Planner FootSpec FootProofs PlannerSpec PlannerProofs PlannerProofs2.
Import ListNotations.
Open Scope R_scope.

Definition geom_pl (c : plcfg) : geom :=
  MkGeom (fun b => if b then V2 0 (pl_nomWidth c / 2) else V2 0 (- pl_nomWidth c / 2))
         (fun b => if b then pl_leftYaw c else pl_rightYaw c).

Lemma addFrom_fst : forall u t f, ft_distSet f = true ->
  (0 <= t /\ fsteps (fst (ft_addFromUnicycle u t f)) = fsteps f ++
       [MkStep (vadd (u_pos u) (rot (u_angle u) (ft_dist f))) (u_angle u + ft_yaw f) t (fp_name (ft_fp f))]
   \/ t < 0 /\ fsteps (fst (ft_addFromUnicycle u t f)) = fsteps f)
  /\ same_params (fst (ft_addFromUnicycle u t f)) f.
Proof.
  intros u t f Hd. unfold ft_addFromUnicycle, fp_addStep. rewrite Hd; simpl.
  destruct (Rltb t 0) eqn:E; simpl; unfold same_params, fsteps; simpl.
  - apply Rltb_true in E. repeat split; auto. 
  - apply Rltb_false in E. repeat split; auto.
Qed.

Lemma same_params_refl : forall f, same_params f f.
Proof. unfold same_params; tauto. Qed.

Lemma fsteps_last : forall f, ft_getLast f = last_opt (fsteps f).
Proof. reflexivity. Qed.

(** Facts established by a successful initialisation (the stance foot has a last step). *)
Lemma init_facts : forall c e init tend lfp rfp i sol prev0,
  nonneg_times (fp_steps lfp) -> nonneg_times (fp_steps rfp) ->
  init_planner c e init tend lfp rfp = Some (i, sol) ->
  ft_getLast (stance_of (i_swingLeft i) (i_left i) (i_right i)) = Some prev0 ->
  0 <= init /\ init < tend
  /\ same_params (i_left i) (pl_foot c true lfp) /\ same_params (i_right i) (pl_foot c false rfp)
  /\ starts_from (geom_pl c) init (fp_steps lfp) (fp_steps rfp) (fsteps (i_left i)) (fsteps (i_right i))
  /\ last_before init (fsteps (i_left i)) /\ last_before init (fsteps (i_right i))
  /\ nonneg_times (fsteps (i_left i)) /\ nonneg_times (fsteps (i_right i)).
Proof.
  intros c e init tend lfp rfp i sol prev0 Nl Nr H Hp. unfold init_planner in H.
  destruct (init_state c e init (pl_foot c true lfp) (pl_foot c false rfp)) as [i'|] eqn:Ei; [|discriminate].
  destruct (Rleb tend init) eqn:Et; [discriminate|]. apply Rleb_false in Et.
  destruct (v_integ e (i_state i')) as [sol'|]; [|discriminate]. injection H as -> ->.
  unfold init_state in Ei.
  destruct (feet_state c e init (pl_foot c true lfp) (pl_foot c false rfp)) as [[i0 tf]|] eqn:Ef; [|discriminate].
  match type of Ei with (if ?b then _ else _) = _ => destruct b eqn:Er end; [discriminate|].
  injection Ei as <-. cbn [i_left i_right i_swingLeft] in *.
  unfold feet_state in Ef. rewrite !fsteps_last in Ef.
  change (fsteps (pl_foot c true lfp)) with (fp_steps lfp) in Ef.
  change (fsteps (pl_foot c false rfp)) with (fp_steps rfp) in Ef.
  destruct (last_opt (fp_steps lfp)) as [ll|] eqn:El; destruct (last_opt (fp_steps rfp)) as [lr|] eqn:Er'.
  4:{ (* both empty *)
    apply last_opt_none in El, Er'.
    match type of Ef with match ?x with _ => _ end = _ => destruct x as [u|] end; [|discriminate].
    injection Ef as <- <-. cbn [i_left i_right] in *.
    destruct (addFrom_fst u init (pl_foot c true lfp) eq_refl) as [A1 A2].
    destruct (addFrom_fst u init (pl_foot c false rfp) eq_refl) as [B1 B2].
    set (fl := fst (ft_addFromUnicycle u init (pl_foot c true lfp))) in *.
    set (fr := fst (ft_addFromUnicycle u init (pl_foot c false rfp))) in *.
    change (fsteps (pl_foot c true lfp)) with (fp_steps lfp) in A1.
    change (fsteps (pl_foot c false rfp)) with (fp_steps rfp) in B1.
    rewrite El in A1. rewrite Er' in B1. simpl app in A1, B1.
    destruct A1 as [[H0 A1]|[H0 A1]].
    2:{ exfalso. destruct B1 as [[? _]|[_ B1]]; [lra|]. rewrite fsteps_last in Hp. unfold stance_of in Hp.
        match type of Hp with context [if ?b then fr else fl] => destruct b end; [rewrite B1 in Hp|rewrite A1 in Hp]; discriminate. }
    destruct B1 as [[_ B1]|[? _]]; [|lra].
    split; [exact H0|]. split; [exact Et|]. split; [exact A2|]. split; [exact B2|].
    rewrite A1, B1.
    split.
    { right. split; [exact El|]. split; [exact Er'|]. do 2 eexists. split; [reflexivity|]. split; [reflexivity|].
      split; [reflexivity|]. split; [reflexivity|]. exists u. split; split; simpl; try reflexivity; apply vec2_ext; simpl; ring. }
    split; [intros s [= <-]; simpl; lra|]. split; [intros s [= <-]; simpl; lra|].
    split; (constructor; [exact H0|constructor]). }
  all: assert (Hst : fp_steps lfp <> [] \/ fp_steps rfp <> [])
    by (first [left; intros E; rewrite E in El; discriminate | right; intros E; rewrite E in Er'; discriminate]).
  - (* both present *)
    assert (HI : i_left i0 = pl_foot c true lfp /\ i_right i0 = pl_foot c false rfp /\ st_time ll <= init /\ st_time lr <= init /\ 0 <= init).
    { destruct (Reqb (st_time ll) (st_time lr)) eqn:E1; [apply Reqb_true in E1|apply Reqb_false in E1; destruct (Rltb (st_time ll) (st_time lr)) eqn:E2; [apply Rltb_true in E2|apply Rltb_false in E2]].
      all: match type of Ef with match ?x with _ => _ end = _ => destruct x end; [|discriminate];
        injection Ef as <- <-; simpl; apply orb_false_iff in Er; destruct Er as [Er _];
        apply orb_false_iff in Er; destruct Er as [Er1 Er2]; apply Rltb_false in Er1, Er2; repeat split; lra. }
    destruct HI as (-> & -> & ? & ? & ?).
    repeat (split; [first [assumption | apply same_params_refl | left; repeat split; assumption]|]).
    split; [intros s Hs; change (fsteps (pl_foot c true lfp)) with (fp_steps lfp) in Hs; congruence|].
    split; [intros s Hs; change (fsteps (pl_foot c false rfp)) with (fp_steps rfp) in Hs; congruence|].
    split; assumption.
  - assert (HI : i_left i0 = pl_foot c true lfp /\ i_right i0 = pl_foot c false rfp /\ st_time ll <= init /\ 0 <= init).
    { match type of Ef with match ?x with _ => _ end = _ => destruct x end; [|discriminate];
        injection Ef as <- <-; simpl; apply orb_false_iff in Er; destruct Er as [Er _];
        apply orb_false_iff in Er; destruct Er as [Er1 Er2]; apply Rltb_false in Er1, Er2; repeat split; lra. }
    destruct HI as (-> & -> & ? & ?).
    repeat (split; [first [assumption | apply same_params_refl | left; repeat split; assumption]|]).
    split; [intros s Hs; change (fsteps (pl_foot c true lfp)) with (fp_steps lfp) in Hs; congruence|].
    split; [intros s Hs; change (fsteps (pl_foot c false rfp)) with (fp_steps rfp) in Hs; congruence|].
    split; assumption.
  - assert (HI : i_left i0 = pl_foot c true lfp /\ i_right i0 = pl_foot c false rfp /\ st_time lr <= init /\ 0 <= init).
    { match type of Ef with match ?x with _ => _ end = _ => destruct x end; [|discriminate];
        injection Ef as <- <-; simpl; apply orb_false_iff in Er; destruct Er as [Er _];
        apply orb_false_iff in Er; destruct Er as [Er1 Er2]; apply Rltb_false in Er1, Er2; repeat split; lra. }
    destruct HI as (-> & -> & ? & ?).
    repeat (split; [first [assumption | apply same_params_refl | left; repeat split; assumption]|]).
    split; [intros s Hs; change (fsteps (pl_foot c true lfp)) with (fp_steps lfp) in Hs; congruence|].
    split; [intros s Hs; change (fsteps (pl_foot c false rfp)) with (fp_steps rfp) in Hs; congruence|].
    split; assumption.
Qed.

Record good_cfg (c : plcfg) : Prop := MkGoodCfg {
  gc_min : 0 <= pl_minT c; gc_nom : pl_minT c <= pl_nomT c; gc_max : pl_nomT c <= pl_maxT c;
  gc_dT : 0 <= pl_dT c
}.

(** Everything about a successful call. *)
Lemma plan_spec : forall c e fuel lfp rfp init tend l' r' sw' sl',
  good_cfg c -> nonneg_times (fp_steps lfp) -> nonneg_times (fp_steps rfp) ->
  compute_new_steps c e fuel lfp rfp init tend = PDone l' r' sw' sl' ->
  exists (ls0 rs0 : list step) (sw0 : bool) (prev0 : step) (sol : R -> ustate) (adds term : list step),
    starts_from (geom_pl c) init (fp_steps lfp) (fp_steps rfp) ls0 rs0
    /\ (exists u0 : ustate, v_integ e u0 = Some sol)
    /\ last_opt (if sw0 then rs0 else ls0) = Some prev0
    /\ last_before init ls0 /\ last_before init rs0 /\ 0 <= init /\ init < tend
    /\ chain (search_placement (pl_prob c) (geom_pl c) sol init tend (pl_minT c)) sw0 prev0 adds
    /\ terminal_placement (pl_prob c) (geom_pl c) (sol tend) (turn sw0 (length adds)) (List.last adds prev0) term
    /\ chain (nominal_after init (pl_nomT c)) (turn sw0 (length adds)) (List.last adds prev0) term
    /\ (pl_addTerm c = false -> term = [])
    /\ (pl_addTerm c = true -> exists a b, ft_getLast l' = Some a /\ ft_getLast r' = Some b
        /\ feet_parallel (geom_pl c) (pl_minLen c) (pl_minAngle c) a b)
    /\ ((adds ++ term <> [] /\ sl' = pl_startLeft c
         /\ fsteps l' = ls0 ++ fst (deal sw0 (adds ++ term)) /\ fsteps r' = rs0 ++ snd (deal sw0 (adds ++ term)))
        \/ (adds ++ term = [] /\ synchronised ls0 rs0 (fsteps l') (fsteps r') (pl_reset c) (pl_startLeft c) sl')).
Proof.
  intros c e fuel lfp rfp init tend l' r' sw' sl' [G1 G2 G3 G4] Nl Nr H.
  unfold compute_new_steps in H.
  destruct (Rgtb _ _); [discriminate|]. destruct (Rgtb _ _); [discriminate|]. destruct (Rgeb _ _); [discriminate|].
  destruct (negb _); [discriminate|].
  destruct (init_planner c e init tend lfp rfp) as [[i sol]|] eqn:Ei; [|discriminate].
  destruct (ft_getLast (stance_of (i_swingLeft i) (i_left i) (i_right i))) as [prev0|] eqn:Ep.
  2:{ unfold search_steps in H. change (if i_swingLeft i then i_right i else i_left i) with (stance_of (i_swingLeft i) (i_left i) (i_right i)) in H.
      rewrite Ep in H. discriminate. }
  destruct (init_facts _ _ _ _ _ _ _ _ _ Nl Nr Ei Ep) as (F1 & F2 & F3 & F4 & F5 & F6 & F7 & F8 & F9).
  assert (Hg : geom_of (i_left i) (i_right i) = geom_pl c).
  { destruct F3 as (_ & A & B & _), F4 as (_ & A' & B' & _). unfold geom_of. rewrite A, B, A', B'. reflexivity. }
  assert (Hpt : st_time prev0 <= init).
  { unfold stance_of in Ep. destruct (i_swingLeft i); [apply F7|apply F6]; exact Ep. }
  pose proof F3 as (P1 & _ & _ & P4 & P5 & _). pose proof F4 as (Q1 & _ & _ & Q4 & Q5 & _). simpl in P1, P4, P5, Q1, Q4, Q5.
  apply search_spec with (prev0 := prev0) in H; simpl; auto; try lra.
  destruct H as (adds & term & S1 & S2 & S3 & S4 & S5 & S6 & S7 & S8). simpl in *. rewrite Hg in *.
  exists (fsteps (i_left i)), (fsteps (i_right i)), (i_swingLeft i), prev0, sol, adds, term.
  split; [exact F5|]. split.
  { unfold init_planner in Ei. destruct (init_state _ _ _ _ _) as [i'|]; [|discriminate].
    destruct (Rleb tend init); [discriminate|]. destruct (v_integ e (i_state i')) eqn:E; [|discriminate]. injection Ei as -> ->. eauto. }
  split; [unfold stance_of in Ep; destruct (i_swingLeft i); exact Ep|].
  repeat (split; [assumption|]). split; [|exact S8].
  intros Ht. destruct (S7 Ht) as (a & b & A & B & C). exists a, b. split; [exact A|]. split; [exact B|].
  rewrite P4, P5, Q4, Q5 in C. destruct (turn (i_swingLeft i) (length adds)); exact C.
Qed.

(** ** Termination *)
Section Term.
Variable c : scfg.
Hypothesis dT_pos : 0 < g_dT c.
Hypothesis init_end : g_init c < g_end c.
Hypothesis init_nn : 0 <= g_init c.

Definition grid (k : nat) : R := Rmin (g_init c + INR k * g_dT c) (g_end c).
Variable N : nat.
Hypothesis HN : g_end c <= g_init c + INR N * g_dT c.

Lemma grid_le_end : forall k, grid k <= g_end c.
Proof. intros; apply Rmin_r. Qed.

Lemma grid_init : forall k, g_init c < grid k -> (0 < k)%nat.
Proof.
  intros [|k] H; [|lia]. unfold grid in H. simpl in H. rewrite Rmult_0_l, Rplus_0_r in H.
  pose proof (Rmin_l (g_init c) (g_end c)). lra.
Qed.

Lemma grid_lt_N : forall k, grid k < g_end c -> (k < N)%nat.
Proof.
  intros k H. destruct (Nat.le_gt_cases N k) as [Hk|Hk]; auto. exfalso.
  assert (INR N * g_dT c <= INR k * g_dT c) by (apply Rmult_le_compat_r; [lra|apply le_INR; auto]).
  unfold grid in H. rewrite Rmin_right in H; lra.
Qed.

Lemma advance_grid : forall k, (grid k < g_end c /\ advance c (grid k) = grid (S k)) \/ (grid k = g_end c /\ g_end c < advance c (grid k)).
Proof.
  intros k. destruct (Rle_lt_or_eq_dec _ _ (grid_le_end k)) as [H|H].
  - left. split; auto. unfold grid in H.
    assert (E : grid k = g_init c + INR k * g_dT c).
    { unfold grid. destruct (Rle_dec (g_init c + INR k * g_dT c) (g_end c)); [apply Rmin_left; auto|].
      rewrite Rmin_right in H by lra. lra. }
    rewrite E. unfold grid. rewrite S_INR. unfold advance.
    assert (Hlt : g_init c + INR k * g_dT c < g_end c) by (unfold grid in E; rewrite <- E; exact H).
    destruct (Rgtb (g_init c + INR k * g_dT c + g_dT c) (g_end c)) eqn:E1; unfold Rgtb in E1; [apply Rltb_true in E1|apply Rltb_false in E1].
    + replace (Rltb (g_init c + INR k * g_dT c) (g_end c)) with true by (symmetry; apply Rltb_true; auto).
      simpl. rewrite Rmin_right; [reflexivity|lra].
    + simpl. rewrite Rmin_left; lra.
  - right. split; auto. rewrite H. unfold advance.
    replace (Rltb (g_end c) (g_end c)) with false by (symmetry; apply Rltb_false; lra).
    rewrite andb_false_r. lra.
Qed.

(** [k]: current sample; [kp]: sample of the last best placement. *)
Definition TInv (s : sst) (kp k : nat) : Prop :=
  s_t s = grid k /\ (k <= N)%nat /\ ((k = 0 /\ kp = 0) \/ kp < k)%nat
  /\ 0 <= s_offset s
  /\ (s_tOpt s <= 0 \/ exists j, (kp < j)%nat /\ (j <= N)%nat /\ s_tOpt s = grid j /\ grid j < g_end c).

Definition measure (kp k : nat) : nat := ((N - kp) * (N + 2) + (N + 1 - k))%nat.

Lemma body_term : forall s s' kp k, TInv s kp k -> body c s = Ok s' ->
  exists kp' k', s_t s' = grid k' /\ (k' <= N)%nat /\ (kp' <= k')%nat /\ 0 <= s_offset s'
    /\ (s_tOpt s' <= 0 \/ exists j, (kp' < j)%nat /\ (j <= N)%nat /\ s_tOpt s' = grid j /\ grid j < g_end c)
    /\ (measure kp' (S k') < measure kp k)%nat.
Proof.
  intros s s' kp k (T1 & T2 & T3 & T4 & T5) Hb. unfold body in Hb.
  assert (Hm : (measure kp (S k) < measure kp k)%nat) by (unfold measure; lia).
  destruct (Rgeb (s_t s - st_time (s_prev s)) (g_minT c) && Rgtb (s_t s) (g_init c + s_offset s)) eqn:Eg.
  2:{ injection Hb as <-. exists kp, k. repeat split; auto. lia. }
  apply andb_true_iff in Eg. destruct Eg as [_ Eg]. unfold Rgtb in Eg; apply Rltb_true in Eg.
  assert (Hk : (0 < k)%nat) by (apply grid_init; rewrite <- T1; lra).
  destruct (ft_isTiny (g_sol c (s_t s)) (swingOf s)) eqn:Et; simpl in Hb.
  { injection Hb as <-. exists kp, k. simpl. repeat split; auto. lia. }
  destruct (Rgtb (s_t s - st_time (s_prev s) - s_pause s) (g_maxT c) || Reqb (s_t s) (g_end c)) eqn:Em.
  - destruct (Rgtb (s_tOpt s) 0) eqn:Eo; unfold Rgtb in Eo; [apply Rltb_true in Eo|apply Rltb_false in Eo].
    + destruct T5 as [?|(j & J1 & J2 & J3 & J4)]; [lra|].
      unfold place_best in Hb. destruct (ft_addFromUnicycle _ _ _) as [f ok]. destruct ok; simpl in Hb; [|discriminate].
      destruct (set_swing s f) as [l r]. simpl in Hb. unfold refresh_prev in Hb.
      destruct (ft_getLast _); [|discriminate]. injection Hb as <-. simpl.
      exists j, j. repeat split; auto; try lra; try lia.
      unfold measure. assert (N - j + 1 <= N - kp)%nat by lia.
        assert ((N - j + 1) * (N + 2) <= (N - kp) * (N + 2))%nat by (apply Nat.mul_le_mono_r; auto). lia.
    + unfold place_parallel in Hb. destruct (ft_stateFromStep _ _) as [u|]; [|discriminate].
      destruct (ft_isTiny u (swingOf s)); simpl in Hb.
      * unfold refresh_prev in Hb. destruct (ft_getLast _); [|discriminate]. injection Hb as <-. simpl.
        exists kp, k. repeat split; auto. lia.
      * destruct (ft_addParallel _ _ _) as [f ok]. destruct ok; simpl in Hb; [|discriminate].
        destruct (set_swing s f) as [l r]. simpl in Hb. unfold refresh_prev in Hb.
        destruct (ft_getLast _); [|discriminate]. injection Hb as <-. simpl.
        exists kp, k. repeat split; auto; try lra. lia.
  - unfold try_sample in Hb. destruct (get_rPl _ _ _ _); [|discriminate]. destruct (get_rel _ _ _ _); [|discriminate].
    destruct (ft_posFromUnicycle _ _); [|discriminate]. cbv zeta in Hb.
    match type of Hb with (if ?b then _ else _) = _ => destruct b end.
    2:{ injection Hb as <-. exists kp, k. repeat split; auto. lia. }
    destruct (Rltb (s_tOpt s) 0 || _); injection Hb as <-; simpl; exists kp, k; repeat split; auto; try lia.
    right. exists k. apply orb_false_iff in Em. destruct Em as [_ Em]. apply Reqb_false in Em.
    rewrite <- T1. repeat split; auto; try lia. pose proof (grid_le_end k). rewrite <- T1 in H.
    destruct (Rle_lt_or_eq_dec _ _ H); auto. congruence.
Qed.

Lemma loop_terminates : forall fuel s kp k, TInv s kp k -> (measure kp k < fuel)%nat -> run_loop c fuel s <> LFuel.
Proof.
  induction fuel as [|fuel IH]; intros s kp k HT Hf; [lia|]. simpl.
  destruct (Rleb (s_t s) (g_end c)) eqn:E; [|discriminate].
  unfold iter1. destruct (body c s) as [s1| |] eqn:Eb; simpl; try discriminate.
  destruct (body_term _ _ _ _ HT Eb) as (kp' & k' & B1 & B2 & B3 & B4 & B5 & B6).
  destruct (advance_grid k') as [[A1 A2]|[A1 A2]].
  - apply (IH _ kp' (S k')); [|lia]. repeat split; simpl; auto; try lia.
    + rewrite B1. exact A2.
    + apply grid_lt_N in A1. lia.
  - destruct fuel; simpl; rewrite B1; (replace (Rleb (advance c (grid k')) (g_end c)) with false by (symmetry; apply Rleb_false; lra)); discriminate.
Qed.
End Term.

Lemma INR_unbounded' : forall x, exists N, x < INR N.
Proof.
  intros x. exists (Z.to_nat (up x)). rewrite INR_IZR_INZ. destruct (archimed x) as [H _].
  destruct (Z.le_gt_cases 0 (up x)) as [Hz|Hz].
  - rewrite Z2Nat.id; auto.
  - assert (IZR (up x) < 0) by (apply IZR_lt; auto). replace (Z.to_nat (up x)) with 0%nat by lia. simpl. lra.
Qed.

Lemma search_terminates : forall c addTerm reset l r sw first sl,
  0 < g_dT c -> 0 <= g_nomT c -> g_init c < g_end c -> 0 <= g_init c ->
  exists fuel0, forall fuel, (fuel0 <= fuel)%nat -> search_steps c fuel addTerm reset l r sw first sl <> PFuel.
Proof.
  intros c addTerm reset l r sw first sl HdT Hnom He Hi.
  destruct (INR_unbounded' ((g_end c - g_init c) / g_dT c)) as [N HN].
  assert (HN' : g_end c <= g_init c + INR N * g_dT c).
  { assert ((g_end c - g_init c) / g_dT c * g_dT c < INR N * g_dT c) by (apply Rmult_lt_compat_r; auto).
    unfold Rdiv in H. rewrite Rmult_assoc, Rinv_l, Rmult_1_r in H by lra. lra. }
  exists (S (measure N 0 0)). intros fuel Hf. unfold search_steps.
  destruct (ft_getLast _) as [prev|]; [|discriminate].
  cbv zeta. match goal with |- context [run_loop c fuel ?s] => set (s0 := s) end.
  assert (HT : TInv c N s0 0 0).
  { unfold TInv, s0; simpl. repeat split; try lia.
    - unfold grid; simpl. rewrite Rmin_left; lra.
    - destruct first; lra.
    - left; lra. }
  pose proof (loop_terminates c HdT N HN' fuel s0 0 0 HT ltac:(lia)) as L.
  destruct (run_loop c fuel s0) as [s| |]; try discriminate; try congruence.
  match goal with |- context [match ?x with Ok _ => _ | Fail => _ | UB => _ end] => destruct x as [[a b]| |] end; try discriminate.
  destruct (_ && _); try discriminate. destruct (sync_feet _ _ _ _) as [[[? ?] ?]| |]; discriminate.
Qed.
