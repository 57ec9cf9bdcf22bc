(** Proofs about the step search: invariant of the main loop, terminal step. *)
From Coq Require Import Reals Lra Lia String List Bool.
From Verif Require Import Prelude FootPrint FootPrintProofs UnicycleFoot Ellipse Optimization PlannerSearch FootSpec FootProofs PlannerSpec.
Import ListNotations.
Open Scope R_scope.

Lemma turn_negb : forall n sw, turn (negb sw) n = negb (turn sw n).
Proof. induction n; intros; simpl; [reflexivity|]. rewrite IHn; reflexivity. Qed.

Lemma deal_app : forall adds sw x,
  deal sw (adds ++ [x]) =
  let '(a, b) := deal sw adds in if turn sw (length adds) then (a ++ [x], b) else (a, b ++ [x]).
Proof.
  induction adds as [|y adds IH]; intros sw x; [destruct sw; reflexivity|].
  cbn [app deal length turn]. rewrite IH. destruct (deal (negb sw) adds) as [a b].
  rewrite turn_negb. destruct (turn sw (length adds)), sw; reflexivity.
Qed.

Lemma last_app1 : forall (l : list step) x d, List.last (l ++ [x]) d = x.
Proof. intros; apply last_last. Qed.

Lemma last_shift : forall (l : list step) x d, List.last (x :: l) d = List.last l x.
Proof.
  induction l as [|y l IH]; intros x d; [reflexivity|].
  change (List.last (x :: y :: l) d) with (List.last (y :: l) d). rewrite !IH. reflexivity.
Qed.

Lemma chain_app : forall P adds sw prev x,
  chain P sw prev (adds ++ [x]) <->
  chain P sw prev adds /\ P (turn sw (length adds)) (List.last adds prev) x.
Proof.
  intros P; induction adds as [|y adds IH]; intros sw prev x; [simpl; tauto|].
  cbn [app chain length turn]. rewrite IH, turn_negb, (last_shift adds y prev). tauto.
Qed.

Lemma chain_impl : forall (P Q : bool -> step -> step -> Prop), (forall b p x, P b p x -> Q b p x) ->
  forall adds sw prev, chain P sw prev adds -> chain Q sw prev adds.
Proof. intros P Q H; induction adds; simpl; intros; [auto|]. destruct H0; split; auto. Qed.

Lemma chain_app2 : forall P a b sw prev,
  chain P sw prev (a ++ b) <-> chain P sw prev a /\ chain P (turn sw (length a)) (List.last a prev) b.
Proof.
  intros P; induction a as [|y a IH]; intros b sw prev; [simpl; tauto|].
  cbn [app chain length turn]. rewrite IH, turn_negb, (last_shift a y prev). tauto.
Qed.

Definition fsteps (f : foot) : list step := fp_steps (ft_fp f).
Definition same_params (f g : foot) : Prop :=
  ft_distSet f = ft_distSet g /\ ft_dist f = ft_dist g /\ ft_yaw f = ft_yaw g
  /\ ft_minStep f = ft_minStep g /\ ft_minAngle f = ft_minAngle g /\ fp_name (ft_fp f) = fp_name (ft_fp g).

Definition geom_of (l r : foot) : geom :=
  MkGeom (fun b => if b then ft_dist l else ft_dist r) (fun b => if b then ft_yaw l else ft_yaw r).

(** A feasible sample at [t] for the current state. *)
Definition good_sample (c : scfg) (s : sst) (t : R) : Prop :=
  st_time (s_prev s) < t /\ g_minT c <= t - st_time (s_prev s) /\ g_init c < t /\ t <= g_end c
  /\ exists rPl rel pos da dt,
      get_rPl (s_swingLeft s) (s_left s) (s_right s) (g_sol c t) = Some rPl
      /\ get_rel (s_swingLeft s) (s_left s) (s_right s) (g_sol c t) = Some rel
      /\ ft_posFromUnicycle (swingOf s) (g_sol c t) = Some pos
      /\ da = Rabs (ft_angleFromStep (stanceOf s) (s_prev s) - u_angle (g_sol c t))
      /\ prob_feasible (g_prob c) (cand_of rPl da dt pos rel) = true.

Section Loop.
Variable c : scfg.
Variables l0 r0 : foot.
Variable sw0 : bool.
Variable prev0 : step.
Hypothesis dT_pos : 0 < g_dT c.
Hypothesis minT_nn : 0 <= g_minT c.
Hypothesis init_nn : 0 <= g_init c.
Hypothesis distL : ft_distSet l0 = true.
Hypothesis distR : ft_distSet r0 = true.

Let g := geom_of l0 r0.
Let PP := search_placement (g_prob c) g (g_sol c) (g_init c) (g_end c) (g_minT c).

Record LInvB (adds : list step) (s : sst) : Prop := MkLInv {
  li_left : fsteps (s_left s) = fsteps l0 ++ fst (deal sw0 adds);
  li_right : fsteps (s_right s) = fsteps r0 ++ snd (deal sw0 adds);
  li_pl : same_params (s_left s) l0;
  li_pr : same_params (s_right s) r0;
  li_sw : s_swingLeft s = turn sw0 (length adds);
  li_prev : s_prev s = List.last adds prev0;
  li_chain : chain PP sw0 prev0 adds;
  li_stance : ft_getLast (stanceOf s) = Some (s_prev s);
  li_time : st_time (s_prev s) <= s_t s;
  li_init : g_init c <= s_t s;
  li_pause : 0 <= s_pause s;
  li_offset : 0 <= s_offset s;
  li_opt : s_tOpt s < 0 \/ good_sample c s (s_tOpt s)
}.
Definition LInv (adds : list step) (s : sst) : Prop :=
  LInvB adds s /\ (g_init c < s_t s -> st_time (s_prev s) < s_t s).

Lemma advance_gt : forall t, t < advance c t.
Proof. intros t; unfold advance. rcases; simpl; lra. Qed.

Lemma LInvB_advance : forall adds s, LInvB adds s -> LInv adds (set_t s (advance c (s_t s))).
Proof.
  intros adds s [H1 H2 H3 H4 H5 H6 H7 H8 H9 H10 H11 H12 H13]. pose proof (advance_gt (s_t s)) as Ha.
  split; [constructor|]; simpl; auto; try lra.
Qed.

Lemma stance_params : forall adds s, LInvB adds s ->
  same_params (stanceOf s) (if s_swingLeft s then r0 else l0)
  /\ same_params (swingOf s) (if s_swingLeft s then l0 else r0).
Proof. intros adds s H. destruct H. unfold stanceOf, swingOf. destruct (s_swingLeft s); auto. Qed.

Lemma feasible_placed : forall adds s t, LInvB adds s -> good_sample c s t ->
  forall x, st_pos x = vadd (u_pos (g_sol c t)) (rot (u_angle (g_sol c t)) (ft_dist (swingOf s))) ->
  st_angle x = u_angle (g_sol c t) + ft_yaw (swingOf s) -> st_time x = t ->
  PP (s_swingLeft s) (s_prev s) x.
Proof.
  intros adds s t H (Ht & Hm & Hi & He & rPl & rel & pos & da & dt & H1 & H2 & H3 & H4 & H5) x Hp Ha Hx.
  destruct (stance_params _ _ H) as [(Sa & Sb & Sc & _) (Ta & Tb & Tc & _)].
  split; [left|subst t; repeat split; lra].
  assert (Hg1 : ft_dist (swingOf s) = off g (s_swingLeft s)).
  { rewrite Tb. unfold g; simpl. destruct (s_swingLeft s); reflexivity. }
  assert (Hg2 : ft_yaw (swingOf s) = yaw g (s_swingLeft s)).
  { rewrite Tc. unfold g; simpl. destruct (s_swingLeft s); reflexivity. }
  assert (Hg3 : ft_yaw (stanceOf s) = yaw g (negb (s_swingLeft s))).
  { rewrite Sc. unfold g; simpl. destruct (s_swingLeft s); reflexivity. }
  rewrite Hx. split.
  - split; [|rewrite Ha, Hg2; reflexivity].
    rewrite Hp, Hg1. apply vec2_ext; simpl; ring.
  - assert (Hpos : pos = st_pos x).
    { unfold ft_posFromUnicycle in H3. destruct (negb (ft_distSet (swingOf s))); [discriminate|].
      injection H3 as <-. symmetry; exact Hp. }
    subst pos.
    pose proof (li_stance _ _ H) as Hst. unfold stanceOf in Hst.
    assert (Hst' : (if s_swingLeft s then ft_getLast (s_right s) else ft_getLast (s_left s)) = Some (s_prev s)).
    { destruct (s_swingLeft s); exact Hst. }
    pose proof (feasible_admissible (g_prob c) _ _ _ _ _ da dt _ _ _ Hst' H1 H2 H3) as [F _].
    specialize (F H5). destruct F as (F1 & F2 & F3 & F4 & F5). repeat split; auto.
    intros a Ea. specialize (F3 a Ea). subst da. rewrite Rabs_Rabsolu in F3.
    unfold ft_angleFromStep in F3. rewrite Hg3 in F3. exact F3.
    all: try (apply F5; assumption). all: intros; eapply F5; eauto.
Qed.

Lemma parallel_placed : forall adds s u, LInvB adds s -> ft_stateFromStep (stanceOf s) (s_prev s) = Some u ->
  forall x, st_pos x = vadd (st_pos (s_prev s)) (rot (st_angle (s_prev s) - ft_yaw (stanceOf s)) (vsub (ft_dist (swingOf s)) (ft_dist (stanceOf s)))) ->
  st_angle x = st_angle (s_prev s) - ft_yaw (stanceOf s) + ft_yaw (swingOf s) ->
  stands_at g (negb (s_swingLeft s)) u (s_prev s) /\ stands_at g (s_swingLeft s) u x.
Proof.
  intros adds s u H Hu x Hp Ha.
  destruct (stance_params _ _ H) as [(Sa & Sb & Sc & _) (Ta & Tb & Tc & _)].
  assert (Hd1 : ft_dist (swingOf s) = off g (s_swingLeft s)).
  { rewrite Tb. unfold g; simpl. destruct (s_swingLeft s); reflexivity. }
  assert (Hd2 : ft_yaw (swingOf s) = yaw g (s_swingLeft s)).
  { rewrite Tc. unfold g; simpl. destruct (s_swingLeft s); reflexivity. }
  assert (Hd3 : ft_dist (stanceOf s) = off g (negb (s_swingLeft s))).
  { rewrite Sb. unfold g; simpl. destruct (s_swingLeft s); reflexivity. }
  assert (Hd4 : ft_yaw (stanceOf s) = yaw g (negb (s_swingLeft s))).
  { rewrite Sc. unfold g; simpl. destruct (s_swingLeft s); reflexivity. }
  unfold ft_stateFromStep in Hu. destruct (negb (ft_distSet (stanceOf s))); [discriminate|]. injection Hu as <-.
  unfold ft_angleFromStep. unfold stands_at; cbn [u_pos u_angle].
  rewrite Hd3, Hd4 in *. rewrite Hd1 in Hp. rewrite Hd2 in Ha. repeat split.
  - apply vec2_ext; simpl; ring.
  - ring.
  - rewrite Hp. apply vec2_ext; simpl; ring.
  - rewrite Ha. ring.
Qed.

(** Adding step [x] to the swing foot, switching the feet and refreshing the previous step. *)
Lemma LInvB_place : forall adds s f x t mc fst_,
  LInvB adds s -> fsteps f = fsteps (swingOf s) ++ [x] -> same_params f (swingOf s) ->
  PP (s_swingLeft s) (s_prev s) x -> st_time x = t ->
  let lr := set_swing s f in
  LInvB (adds ++ [x]) (MkS (fst lr) (snd lr) (negb (s_swingLeft s)) fst_ t (-1) mc 0 0 x).
Proof.
  intros adds s f x t mc fst_ H Hf Hp HP Ht. pose proof H as H0.
  destruct H as [H1 H2 H3 H4 H5 H6 H7 H8 H9 H10 H11 H12 H13].
  assert (Hlast : ft_getLast f = Some x) by (eapply getLast_app; exact Hf).
  destruct HP as (HP0 & HP1 & HP2 & HP3 & HP4).
  cbv zeta.
  destruct (deal sw0 adds) as [da db] eqn:Ed; simpl in H1, H2.
  constructor; simpl.
  - rewrite deal_app, Ed, <- H5. unfold set_swing, swingOf in *. destruct (s_swingLeft s); simpl.
    + rewrite Hf, H1, app_assoc; reflexivity.
    + rewrite H1; reflexivity.
  - rewrite deal_app, Ed, <- H5. unfold set_swing, swingOf in *. destruct (s_swingLeft s); simpl.
    + rewrite H2; reflexivity.
    + rewrite Hf, H2, app_assoc; reflexivity.
  - unfold set_swing, swingOf, same_params in *. destruct (s_swingLeft s); simpl; intuition congruence.
  - unfold set_swing, swingOf, same_params in *. destruct (s_swingLeft s); simpl; intuition congruence.
  - rewrite app_length, Nat.add_1_r. simpl. rewrite <- H5; reflexivity.
  - symmetry; apply last_app1.
  - apply chain_app. split; [exact H7|]. rewrite <- H5, <- H6. repeat split; auto.
  - unfold set_swing, stanceOf; simpl. destruct (s_swingLeft s); simpl; exact Hlast.
  - lra.
  - lra.
  - lra.
  - lra.
  - left; lra.
Qed.

Definition is_place (adds' adds : list step) : Prop := adds' = adds \/ exists x, adds' = adds ++ [x].

Lemma LInvB_flags : forall adds s s', LInvB adds s ->
  s_left s' = s_left s -> s_right s' = s_right s -> s_swingLeft s' = s_swingLeft s -> s_prev s' = s_prev s ->
  s_t s' = s_t s -> 0 <= s_pause s' -> s_offset s' = s_offset s ->
  (s_tOpt s' < 0 \/ good_sample c s (s_tOpt s')) -> LInvB adds s'.
Proof.
  intros adds s s' [H1 H2 H3 H4 H5 H6 H7 H8 H9 H10 H11 H12 H13] E1 E2 E3 E4 E5 E6 E7 E8.
  constructor; try congruence; try lra.
  - unfold stanceOf. rewrite E1, E2, E3, E4. exact H8.
  - destruct E8 as [?|E8]; [left; lra|right].
    unfold good_sample, swingOf, stanceOf in *. rewrite E1, E2, E3, E4. exact E8.
Qed.

Lemma body_inv : forall adds s s', LInv adds s -> s_t s <= g_end c -> body c s = Ok s' ->
  exists adds', is_place adds' adds /\ LInvB adds' s'.
Proof.
  intros adds s s' [H Hlt] Hend Hb. unfold body in Hb.
  pose proof H as H0. destruct H0 as [H1 H2 H3 H4 H5 H6 H7 H8 H9 H10 H11 H12 H13].
  destruct (Rgeb (s_t s - st_time (s_prev s)) (g_minT c) && Rgtb (s_t s) (g_init c + s_offset s)) eqn:Eg.
  2:{ injection Hb as <-. exists adds; split; [left; auto|exact H]. }
  apply andb_true_iff in Eg. destruct Eg as [Eg1 Eg2].
  unfold Rgeb in Eg1; apply Rleb_true in Eg1. unfold Rgtb in Eg2; apply Rltb_true in Eg2.
  destruct (ft_isTiny (g_sol c (s_t s)) (swingOf s)) eqn:Et; simpl in Hb.
  { injection Hb as <-. exists adds; split; [left; auto|].
    eapply LInvB_flags; try exact H; simpl; auto. lra. }
  destruct (Rgtb (s_t s - st_time (s_prev s) - s_pause s) (g_maxT c) || Reqb (s_t s) (g_end c)) eqn:Em.
  - (* placement *)
    destruct (Rgtb (s_tOpt s) 0) eqn:Eo.
    + unfold Rgtb in Eo; apply Rltb_true in Eo. destruct H13 as [?|Hgs]; [lra|].
      unfold place_best in Hb.
      destruct (ft_addFromUnicycle (g_sol c (s_tOpt s)) (s_tOpt s) (swingOf s)) as [f ok] eqn:Ea.
      destruct ok; simpl in Hb; [|discriminate].
      apply addFrom_inv in Ea. destruct Ea as (A1 & A2 & A3 & A4 & A5 & A6 & A7 & A8 & A9).
      match type of A3 with _ = _ ++ [?y] => set (x := y) in * end.
      assert (HPP : PP (s_swingLeft s) (s_prev s) x) by (eapply feasible_placed; eauto; reflexivity).
      assert (Hpar : same_params f (swingOf s)) by (unfold same_params; intuition congruence).
      pose proof (LInvB_place adds s f x (s_tOpt s) (s_minCost s) false H A3 Hpar HPP eq_refl) as L.
      cbv zeta in L. destruct (set_swing s f) as [l r] eqn:Es. simpl in Hb, L.
      unfold refresh_prev in Hb. simpl in Hb.
      pose proof (li_stance _ _ L) as Ls. unfold stanceOf in Ls, Hb; simpl in Ls, Hb. rewrite Ls in Hb.
      injection Hb as <-. exists (adds ++ [x]); split; [right; eauto|exact L].
    + apply Rltb_false in Eo. assert (Hneg : s_tOpt s < 0).
      { destruct H13 as [?|Hgs]; [auto|]. destruct Hgs as (_ & _ & ? & _). lra. }
      unfold place_parallel in Hb.
      destruct (ft_stateFromStep (stanceOf s) (s_prev s)) as [u|] eqn:Eu; [|discriminate].
      destruct (ft_isTiny u (swingOf s)) eqn:Etu; simpl in Hb.
      * unfold refresh_prev in Hb. simpl in Hb. unfold stanceOf in Hb; simpl in Hb.
        unfold stanceOf in H8. rewrite H8 in Hb. injection Hb as <-.
        exists adds; split; [left; auto|]. eapply LInvB_flags; try exact H; simpl; auto. lra.
      * destruct (ft_addParallel (stanceOf s) (s_t s) (swingOf s)) as [f ok] eqn:Ea.
        destruct ok; simpl in Hb; [|discriminate].
        apply addParallel_inv in Ea. destruct Ea as (A1 & os & A2 & A3 & A4 & A5 & A6 & A7 & A8 & A9).
        rewrite H8 in A2; injection A2 as <-.
        match type of A3 with _ = _ ++ [?y] => set (x := y) in * end.
        assert (HPP : PP (s_swingLeft s) (s_prev s) x).
        { split; [right|simpl; repeat split; lra].
          exists u. eapply parallel_placed; eauto; reflexivity. }
        assert (Hpar : same_params f (swingOf s)) by (unfold same_params; intuition congruence).
        pose proof (LInvB_place adds s f x (s_t s) (s_minCost s) false H A3 Hpar HPP eq_refl) as L.
        cbv zeta in L. destruct (set_swing s f) as [l r] eqn:Es. simpl in Hb, L.
        unfold refresh_prev in Hb. simpl in Hb.
        pose proof (li_stance _ _ L) as Ls. unfold stanceOf in Ls, Hb; simpl in Ls, Hb. rewrite Ls in Hb.
        injection Hb as <-. exists (adds ++ [x]); split; [right; eauto|].
        eapply LInvB_flags; try exact L; simpl; auto. lra.
  - (* evaluation of a sample *)
    exists adds; split; [left; auto|]. unfold try_sample in Hb.
    destruct (get_rPl _ _ _ _) as [rPl|] eqn:E1; [|discriminate].
    destruct (get_rel _ _ _ _) as [rel|] eqn:E2; [|discriminate].
    destruct (ft_posFromUnicycle _ _) as [pos|] eqn:E3; [|discriminate].
    cbv zeta in Hb.
    match type of Hb with (if ?b then _ else _) = _ => destruct b eqn:Ec end; [|injection Hb as <-; exact H].
    apply andb_true_iff in Ec. destruct Ec as [Ec1 Ec2]. unfold Rgtb in Ec1; apply Rltb_true in Ec1.
    destruct (Rltb (s_tOpt s) 0 || _); injection Hb as <-; [|exact H].
    eapply LInvB_flags; try exact H; simpl; auto. right.
    split; [lra|]. split; [lra|]. split; [lra|]. split; [lra|].
    exists rPl, rel, pos. do 2 eexists. repeat split; eauto.
Qed.

Lemma iter1_inv : forall adds s s', LInv adds s -> s_t s <= g_end c -> iter1 c s = Ok s' ->
  exists adds', is_place adds' adds /\ LInv adds' s'.
Proof.
  intros adds s s' H He Hi. unfold iter1 in Hi.
  destruct (body c s) as [s1| |] eqn:Eb; simpl in Hi; try discriminate. injection Hi as <-.
  destruct (body_inv _ _ _ H He Eb) as (adds' & Hp & L). exists adds'; split; auto. apply LInvB_advance; auto.
Qed.

Lemma run_loop_inv : forall fuel adds s s', LInv adds s -> run_loop c fuel s = LDone s' ->
  exists extra, LInv (adds ++ extra) s' /\ g_end c < s_t s'.
Proof.
  induction fuel as [|fuel IH]; intros adds s s' H Hr; simpl in Hr.
  - destruct (Rleb (s_t s) (g_end c)) eqn:E; [discriminate|]. apply Rleb_false in E. injection Hr as <-.
    exists []. rewrite app_nil_r. auto.
  - destruct (Rleb (s_t s) (g_end c)) eqn:E.
    + apply Rleb_true in E. destruct (iter1 c s) as [s1| |] eqn:Ei; try discriminate.
      destruct (iter1_inv _ _ _ H E Ei) as (adds' & Hp & L).
      destruct (IH _ _ _ L Hr) as (ex & L' & Hx). destruct Hp as [->|[x ->]].
      * exists ex; auto.
      * exists (x :: ex). rewrite <- app_assoc in L'. auto.
    + apply Rleb_false in E. injection Hr as <-. exists []. rewrite app_nil_r. auto.
Qed.

End Loop.
