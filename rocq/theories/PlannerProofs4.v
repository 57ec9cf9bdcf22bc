(** Proofs: the chosen landing time has minimal cost among the feasible samples. *)
From Coq Require Import Reals Lra Lia String List Bool.
From Verif Require Import Prelude FootPrint FootPrintSpec FootPrintProofs UnicycleFoot Ellipse Optimization PlannerSearch FootSpec FootProofs PlannerSpec PlannerProofs PlannerProofs2 PlannerProofs3.
Import ListNotations.
Open Scope R_scope.

(** Written from the documentation: the sample at the current time is a feasible landing with cost
    [cost] for the step being planned. *)
Definition candidate (c : scfg) (g : geom) (s : sst) (cost : R) : Prop :=
  let t := s_t s in let prev := s_prev s in let sw := s_swingLeft s in
  let dt := t - st_time prev - s_pause s in
  g_minT c <= t - st_time prev /\ g_init c + s_offset s < t /\ t <> g_end c
  /\ 0 < dt <= g_maxT c
  /\ ft_isTiny (g_sol c t) (swingOf s) = false
  /\ exists x, admissible_at (g_prob c) g (g_sol c t) sw prev x
               /\ cost = landing_cost (g_prob c) dt (st_pos x) (st_pos prev).

Definition same_feet (s s' : sst) : Prop :=
  fsteps (s_left s') = fsteps (s_left s) /\ fsteps (s_right s') = fsteps (s_right s).

Section Opt.
Variable c : scfg.
Variables l0 r0 : foot.
Variable sw0 : bool.
Variable prev0 : step.
Hypothesis dT_pos : 0 < g_dT c.
Hypothesis init_nn : 0 <= g_init c.
Hypothesis distL : ft_distSet l0 = true.
Hypothesis distR : ft_distSet r0 = true.
Let g := geom_of l0 r0.
Notation LI := (LInv c l0 r0 sw0 prev0).

Lemma app_one_neq : forall (l : list step) x, l ++ [x] <> l.
Proof. intros l x H. apply (f_equal (@length step)) in H. rewrite app_length in H. simpl in H. lia. Qed.

Lemma swing_changed : forall s f x, fsteps f = fsteps (swingOf s) ++ [x] ->
  ~ (fsteps (fst (set_swing s f)) = fsteps (s_left s) /\ fsteps (snd (set_swing s f)) = fsteps (s_right s)).
Proof.
  intros s f x H [A B]. unfold set_swing, swingOf in *. destruct (s_swingLeft s); simpl in A, B.
  - rewrite A in H. symmetry in H. apply app_one_neq in H; auto.
  - rewrite B in H. symmetry in H. apply app_one_neq in H; auto.
Qed.

Lemma cost_eq : forall p (sw : bool) l r u prev da dt rPl rel pos,
  (if sw then ft_getLast r else ft_getLast l) = Some prev ->
  get_rPl sw l r u = Some rPl -> ft_posFromUnicycle (if sw : bool then l else r) u = Some pos ->
  0 < dt ->
  prob_cost p (cand_of rPl da dt pos rel) = landing_cost p dt pos (st_pos prev).
Proof.
  intros p sw l r u prev da dt rPl rel pos Hl H1 H2 Hdt. unfold prob_cost, landing_cost; cbn [c_dTime c_rPl cand_of].
  assert (E : vx rPl * vx rPl + vy rPl * vy rPl = (vx pos - vx (st_pos prev)) ^ 2 + (vy pos - vy (st_pos prev)) ^ 2).
  { unfold get_rPl in H1. destruct sw; rewrite Hl, H2 in H1; injection H1 as <-.
    - pose proof (vnorm2_rotT (st_angle prev) (vsub pos (st_pos prev))) as E. unfold vnorm2 in E. rewrite E. simpl. ring.
    - pose proof (vnorm2_rotT (u_angle u) (vsub (st_pos prev) pos)) as E. unfold vnorm2 in E. rewrite E. simpl. ring. }
  rewrite E. field. lra.
Qed.

(** Effect of one iteration that places no step. *)
Lemma iter_quiet : forall adds s s', LI adds s -> s_t s <= g_end c -> iter1 c s = Ok s' -> same_feet s s' ->
  (exists cost, candidate c g s cost
     /\ ((s_tOpt s < 0 \/ cost <= s_minCost s) /\ s_tOpt s' = s_t s /\ s_minCost s' = cost
         \/ ~ (s_tOpt s < 0 \/ cost <= s_minCost s) /\ s_tOpt s' = s_tOpt s /\ s_minCost s' = s_minCost s))
  \/ ((forall cost, ~ candidate c g s cost) /\ s_tOpt s' = s_tOpt s /\ s_minCost s' = s_minCost s).
Proof.
  intros adds s s' [H Hlt] Hend Hi [Fl Fr]. unfold iter1 in Hi.
  destruct (body c s) as [s1| |] eqn:Hb; simpl in Hi; try discriminate. injection Hi as <-.
  simpl in Fl, Fr |- *. unfold body in Hb.
  pose proof H as H0. destruct H0 as [H1 H2 H3 H4 H5 H6 H7 H8 H9 H10 H11 H12 H13].
  destruct (Rgeb (s_t s - st_time (s_prev s)) (g_minT c) && Rgtb (s_t s) (g_init c + s_offset s)) eqn:Eg.
  2:{ injection Hb as <-. right. split; [|auto]. intros cost (A & B & _).
      apply andb_false_iff in Eg. destruct Eg as [Eg|Eg]; [apply Rleb_false in Eg|apply Rltb_false in Eg]; lra. }
  apply andb_true_iff in Eg. destruct Eg as [Eg1 Eg2].
  unfold Rgeb in Eg1; apply Rleb_true in Eg1. unfold Rgtb in Eg2; apply Rltb_true in Eg2.
  destruct (ft_isTiny (g_sol c (s_t s)) (swingOf s)) eqn:Et; simpl in Hb.
  { injection Hb as <-. right. simpl. split; [|auto]. intros cost (_ & _ & _ & _ & A & _). congruence. }
  destruct (Rgtb (s_t s - st_time (s_prev s) - s_pause s) (g_maxT c) || Reqb (s_t s) (g_end c)) eqn:Em.
  - assert (Hno : forall cost, ~ candidate c g s cost).
    { intros cost (_ & _ & A & B & _). apply orb_true_iff in Em. destruct Em as [Em|Em]; [apply Rltb_true in Em; lra|apply Reqb_true in Em; auto]. }
    right. split; [exact Hno|].
    destruct (Rgtb (s_tOpt s) 0) eqn:Eo.
    + exfalso. unfold place_best in Hb.
      destruct (ft_addFromUnicycle (g_sol c (s_tOpt s)) (s_tOpt s) (swingOf s)) as [f ok] eqn:Ea.
      destruct ok; simpl in Hb; [|discriminate].
      apply addFrom_inv in Ea. destruct Ea as (_ & _ & A3 & _).
      pose proof (swing_changed s f _ A3) as Hsw.
      destruct (set_swing s f) as [l r] eqn:Es. simpl in Hb. unfold refresh_prev in Hb. destruct (ft_getLast _); [|discriminate].
      injection Hb as <-. simpl in Fl, Fr. apply Hsw; auto.
    + unfold place_parallel in Hb.
      destruct (ft_stateFromStep (stanceOf s) (s_prev s)) as [u|] eqn:Eu; [|discriminate].
      destruct (ft_isTiny u (swingOf s)) eqn:Etu; simpl in Hb.
      * unfold refresh_prev in Hb. destruct (ft_getLast _); [|discriminate]. injection Hb as <-. simpl. auto.
      * exfalso. destruct (ft_addParallel (stanceOf s) (s_t s) (swingOf s)) as [f ok] eqn:Ea.
        destruct ok; simpl in Hb; [|discriminate].
        apply addParallel_inv in Ea. destruct Ea as (_ & os & _ & A3 & _).
        pose proof (swing_changed s f _ A3) as Hsw.
        destruct (set_swing s f) as [l r] eqn:Es. simpl in Hb. unfold refresh_prev in Hb. destruct (ft_getLast _); [|discriminate].
        injection Hb as <-. simpl in Fl, Fr. apply Hsw; auto.
  - apply orb_false_iff in Em. destruct Em as [Em1 Em2]. apply Rltb_false in Em1. apply Reqb_false in Em2.
    unfold try_sample in Hb.
    destruct (get_rPl _ _ _ _) as [rPl|] eqn:E1; [|discriminate].
    destruct (get_rel _ _ _ _) as [rel|] eqn:E2; [|discriminate].
    destruct (ft_posFromUnicycle _ _) as [pos|] eqn:E3; [|discriminate].
    cbv zeta in Hb.
    set (da := Rabs (ft_angleFromStep (stanceOf s) (s_prev s) - u_angle (g_sol c (s_t s)))) in *.
    set (dt := s_t s - st_time (s_prev s) - s_pause s) in *.
    assert (Hst' : (if s_swingLeft s then ft_getLast (s_right s) else ft_getLast (s_left s)) = Some (s_prev s)).
    { unfold stanceOf in H8. destruct (s_swingLeft s); exact H8. }
    pose proof (feasible_admissible (g_prob c) _ _ _ _ _ da dt _ _ _ Hst' E1 E2 E3) as HF.
    destruct (stance_params _ _ _ _ _ _ _ H) as [(Sa & Sb & Sc & _) (Ta & Tb & Tc & _)].
    assert (Hd1 : ft_dist (swingOf s) = off g (s_swingLeft s)).
    { rewrite Tb. unfold g; simpl. destruct (s_swingLeft s); reflexivity. }
    assert (Hd2 : ft_yaw (swingOf s) = yaw g (s_swingLeft s)).
    { rewrite Tc. unfold g; simpl. destruct (s_swingLeft s); reflexivity. }
    assert (Hd4 : ft_yaw (stanceOf s) = yaw g (negb (s_swingLeft s))).
    { rewrite Sc. unfold g; simpl. destruct (s_swingLeft s); reflexivity. }
    assert (Hpos : forall x, stands_at g (s_swingLeft s) (g_sol c (s_t s)) x -> st_pos x = pos).
    { intros x [Hx _]. rewrite Hx. unfold ft_posFromUnicycle in E3. destruct (negb _); [discriminate|]. injection E3 as <-.
      rewrite Hd1. apply vec2_ext; simpl; ring. }
    assert (Hadm : forall x, stands_at g (s_swingLeft s) (g_sol c (s_t s)) x ->
       (admissible (g_prob c) (s_swingLeft s) (s_prev s) pos (u_angle (g_sol c (s_t s))) da
        <-> admissible_at (g_prob c) g (g_sol c (s_t s)) (s_swingLeft s) (s_prev s) x)).
    { intros x Hx. unfold admissible_at. rewrite (Hpos x Hx). unfold admissible, da, ft_angleFromStep. rewrite Hd4.
      rewrite Rabs_Rabsolu. tauto. }
    destruct (Rgtb dt 0 && prob_feasible (g_prob c) (cand_of rPl da dt pos rel)) eqn:Ec.
    + apply andb_true_iff in Ec. destruct Ec as [Ec1 Ec2]. unfold Rgtb in Ec1; apply Rltb_true in Ec1.
      left. exists (prob_cost (g_prob c) (cand_of rPl da dt pos rel)).
      rewrite (cost_eq (g_prob c) _ _ _ _ _ da dt rPl rel pos Hst' E1 E3 Ec1) in *.
      split.
      * unfold candidate. fold dt. repeat split; auto; try lra.
        set (u := g_sol c (s_t s)) in *.
        exists (MkStep (V2 (vx (u_pos u) + cos (u_angle u) * vx (off g (s_swingLeft s)) - sin (u_angle u) * vy (off g (s_swingLeft s)))
                (vy (u_pos u) + sin (u_angle u) * vx (off g (s_swingLeft s)) + cos (u_angle u) * vy (off g (s_swingLeft s))))
                (u_angle u + yaw g (s_swingLeft s)) 0 EmptyString).
        match goal with |- admissible_at _ _ _ _ _ ?x /\ _ => assert (Hx : stands_at g (s_swingLeft s) u x) by (split; reflexivity) end.
        split; [apply Hadm; [exact Hx|apply HF; exact Ec2]|]. rewrite (Hpos _ Hx). reflexivity.
      * destruct (Rltb (s_tOpt s) 0 || Rleb (landing_cost (g_prob c) dt pos (st_pos (s_prev s))) (s_minCost s)) eqn:Eo; injection Hb as <-; simpl.
        -- left. split; [|auto]. apply orb_true_iff in Eo. destruct Eo as [Eo|Eo]; [apply Rltb_true in Eo|apply Rleb_true in Eo]; auto.
        -- right. split; [|auto]. apply orb_false_iff in Eo. destruct Eo as [Eo1 Eo2]. apply Rltb_false in Eo1. apply Rleb_false in Eo2. lra.
    + injection Hb as <-. right. split; [|auto].
      intros cost (_ & _ & _ & D & _ & x & X1 & _). fold dt in D.
      apply andb_false_iff in Ec. destruct Ec as [Ec|Ec]; [apply Rltb_false in Ec; lra|].
      assert (prob_feasible (g_prob c) (cand_of rPl da dt pos rel) = true); [|congruence].
      apply HF. apply (Hadm x); [apply X1|exact X1].
Qed.

(** One iteration that places a step. *)
Lemma iter_place : forall adds s s', LI adds s -> s_t s <= g_end c -> iter1 c s = Ok s' -> ~ same_feet s s' ->
  exists x, fsteps (if s_swingLeft s then s_left s' else s_right s') = fsteps (swingOf s) ++ [x]
    /\ fsteps (if s_swingLeft s then s_right s' else s_left s') = fsteps (stanceOf s)
    /\ s_tOpt s' < 0
    /\ ((0 < s_tOpt s /\ st_time x = s_tOpt s /\ stands_at g (s_swingLeft s) (g_sol c (s_tOpt s)) x)
        \/ (s_tOpt s < 0 /\ st_time x = s_t s /\ parallel_to g (negb (s_swingLeft s)) (s_prev s) (s_swingLeft s) x)).
Proof.
  intros adds s s' [H Hlt] Hend Hi Hf. unfold iter1 in Hi.
  destruct (body c s) as [s1| |] eqn:Hb; simpl in Hi; try discriminate. injection Hi as <-.
  unfold same_feet in Hf. simpl in Hf |- *. unfold body in Hb.
  pose proof H as H0. destruct H0 as [H1 H2 H3 H4 H5 H6 H7 H8 H9 H10 H11 H12 H13].
  destruct (Rgeb (s_t s - st_time (s_prev s)) (g_minT c) && Rgtb (s_t s) (g_init c + s_offset s)) eqn:Eg.
  2:{ injection Hb as <-. tauto. }
  destruct (ft_isTiny (g_sol c (s_t s)) (swingOf s)) eqn:Et; simpl in Hb.
  { injection Hb as <-. simpl in Hf; tauto. }
  destruct (stance_params _ _ _ _ _ _ _ H) as [(Sa & Sb & Sc & _) (Ta & Tb & Tc & _)].
  assert (Hd1 : ft_dist (swingOf s) = off g (s_swingLeft s)).
  { rewrite Tb. unfold g; simpl. destruct (s_swingLeft s); reflexivity. }
  assert (Hd2 : ft_yaw (swingOf s) = yaw g (s_swingLeft s)).
  { rewrite Tc. unfold g; simpl. destruct (s_swingLeft s); reflexivity. }
  destruct (Rgtb (s_t s - st_time (s_prev s) - s_pause s) (g_maxT c) || Reqb (s_t s) (g_end c)) eqn:Em.
  - destruct (Rgtb (s_tOpt s) 0) eqn:Eo; [unfold Rgtb in Eo; apply Rltb_true in Eo|unfold Rgtb in Eo; apply Rltb_false in Eo].
    + unfold place_best in Hb.
      destruct (ft_addFromUnicycle (g_sol c (s_tOpt s)) (s_tOpt s) (swingOf s)) as [f ok] eqn:Ea.
      destruct ok; simpl in Hb; [|discriminate].
      apply addFrom_inv in Ea. destruct Ea as (_ & _ & A3 & _).
      match type of A3 with _ = _ ++ [?y] => exists y end.
      destruct (set_swing s f) as [l r] eqn:Es. simpl in Hb. unfold refresh_prev in Hb. destruct (ft_getLast _); [|discriminate].
      injection Hb as <-. simpl. unfold set_swing in Es. unfold swingOf, stanceOf in *.
      split; [destruct (s_swingLeft s); injection Es as <- <-; exact A3|].
      split; [destruct (s_swingLeft s); injection Es as <- <-; reflexivity|].
      split; [lra|]. left. split; [exact Eo|]. split; [reflexivity|].
      split; cbn [st_pos st_angle]; rewrite ?Hd1, ?Hd2; [|reflexivity]. apply vec2_ext; simpl; ring.
    + assert (Hneg : s_tOpt s < 0).
      { destruct H13 as [?|Hgs]; [auto|]. destruct Hgs as (_ & _ & ? & _). lra. }
      unfold place_parallel in Hb.
      destruct (ft_stateFromStep (stanceOf s) (s_prev s)) as [u|] eqn:Eu; [|discriminate].
      destruct (ft_isTiny u (swingOf s)) eqn:Etu; simpl in Hb.
      * unfold refresh_prev in Hb. destruct (ft_getLast _); [|discriminate]. injection Hb as <-. simpl in Hf. tauto.
      * destruct (ft_addParallel (stanceOf s) (s_t s) (swingOf s)) as [f ok] eqn:Ea.
        destruct ok; simpl in Hb; [|discriminate].
        apply addParallel_inv in Ea. destruct Ea as (_ & os & Hos & A3 & _).
        rewrite H8 in Hos; injection Hos as <-.
        match type of A3 with _ = _ ++ [?y] => exists y end.
        pose proof (parallel_placed c l0 r0 sw0 prev0 _ _ _ H Eu) as HPP.
        destruct (set_swing s f) as [l r] eqn:Es. simpl in Hb. unfold refresh_prev in Hb. destruct (ft_getLast _); [|discriminate].
        injection Hb as <-. simpl. unfold set_swing in Es.
        split; [unfold swingOf in *; destruct (s_swingLeft s); injection Es as <- <-; exact A3|].
        split; [unfold stanceOf in *; destruct (s_swingLeft s); injection Es as <- <-; reflexivity|].
        split; [exact Hneg|]. right. split; [exact Hneg|]. split; [reflexivity|].
        exists u. apply HPP; reflexivity.
  - unfold try_sample in Hb.
    destruct (get_rPl _ _ _ _) as [rPl|] eqn:E1; [|discriminate].
    destruct (get_rel _ _ _ _) as [rel|] eqn:E2; [|discriminate].
    destruct (ft_posFromUnicycle _ _) as [pos|] eqn:E3; [|discriminate].
    cbv zeta in Hb. exfalso. apply Hf.
    match type of Hb with (if ?b then _ else _) = _ => destruct b end; [|injection Hb as <-; auto].
    match type of Hb with (if ?b then _ else _) = _ => destruct b end; injection Hb as <-; auto.
Qed.

(** Best so far over the samples of the iterations [m, n). *)
Definition best_so_far (st : nat -> sst) (m n : nat) : Prop :=
  (s_tOpt (st n) < 0 /\ forall i cost, (m <= i < n)%nat -> ~ candidate c g (st i) cost)
  \/ (exists i, (m <= i < n)%nat /\ s_tOpt (st n) = s_t (st i) /\ candidate c g (st i) (s_minCost (st n))
       /\ forall j cost, (m <= j < n)%nat -> candidate c g (st j) cost -> s_minCost (st n) <= cost).

Lemma candidate_unique : forall s a b, candidate c g s a -> candidate c g s b -> a = b.
Proof.
  intros s a b (_ & _ & _ & _ & _ & x & [[X1 _] _] & ->) (_ & _ & _ & _ & _ & y & [[Y1 _] _] & ->).
  rewrite X1, Y1. reflexivity.
Qed.

Lemma best_invariant : forall (st : nat -> sst) adds m n, LI adds (st m) -> (m <= n)%nat ->
  (forall i, (m <= i < n)%nat -> s_t (st i) <= g_end c /\ iter1 c (st i) = Ok (st (S i)) /\ same_feet (st i) (st (S i))) ->
  s_tOpt (st m) < 0 ->
  best_so_far st m n /\ exists ex, LI ex (st n).
Proof.
  intros st adds m n HL Hmn Hst H0.
  assert (Htime : forall k, (m <= k <= n)%nat -> 0 <= s_t (st k)).
  { assert (HLk : forall k, (m <= k)%nat -> (k <= n)%nat -> exists ex, LI ex (st k)).
    { intros k Hk. induction Hk as [|k Hk IHk]; intros Hkn; [eauto|].
      destruct IHk as [ex L]; [lia|]. destruct (Hst k ltac:(lia)) as (T1 & T2 & _).
      destruct (iter1_inv c l0 r0 sw0 prev0 dT_pos init_nn _ _ _ L T1 T2) as (adds' & _ & L'). eauto. }
    intros k [Hk1 Hk2]. destruct (HLk k Hk1 Hk2) as [ex [L _]]. destruct L. lra. }
  induction Hmn as [|n Hmn IH].
  - split; [left; split; [exact H0|intros; lia]|eauto].
  - destruct IH as [HB [ex HLn]]; [intros i Hi; apply Hst; lia|intros; apply Htime; lia|].
    destruct (Hst n ltac:(lia)) as (T1 & T2 & T3).
    assert (HL' : exists ex, LI ex (st (S n))).
    { destruct (iter1_inv c l0 r0 sw0 prev0 dT_pos init_nn _ _ _ HLn T1 T2) as (adds' & _ & L'). eauto. }
    split; [|exact HL'].
    destruct (iter_quiet _ _ _ HLn T1 T2 T3) as [(cost & HC & Q)|(HN & Q1 & Q2)].
    + destruct Q as [(Q0 & Q1 & Q2)|(Q0 & Q1 & Q2)].
      * right. exists n. rewrite Q1, Q2. split; [lia|]. split; [reflexivity|]. split; [exact HC|].
        intros j cost' Hj HC'. destruct (Nat.eq_dec j n) as [->|Hne].
        { rewrite (candidate_unique _ _ _ HC HC'). lra. }
        destruct HB as [[Hneg HB]|(i & Hi & E1 & E2 & HB)].
        { exfalso. apply (HB j cost'); auto. lia. }
        assert (s_minCost (st n) <= cost') by (apply (HB j); auto; lia).
        destruct Q0 as [Q0|Q0]; [|lra].
        exfalso. specialize (Htime i ltac:(lia)). lra.
      * destruct HB as [[Hneg HB]|(i & Hi & E1 & E2 & HB)]; [exfalso; apply Q0; auto|].
        right. exists i. rewrite Q1, Q2. split; [lia|]. split; [exact E1|]. split; [exact E2|].
        intros j cost' Hj HC'. destruct (Nat.eq_dec j n) as [->|Hne].
        { rewrite <- (candidate_unique _ _ _ HC HC'). destruct (Rle_dec (s_minCost (st n)) cost); auto. exfalso. apply Q0. right. lra. }
        apply (HB j); auto. lia.
    + destruct HB as [[Hneg HB]|(i & Hi & E1 & E2 & HB)].
      * left. rewrite Q1. split; [exact Hneg|]. intros i cost Hi. destruct (Nat.eq_dec i n) as [->|Hne]; [apply HN|apply HB; lia].
      * right. exists i. rewrite Q1, Q2. split; [lia|]. split; [exact E1|]. split; [exact E2|].
        intros j cost' Hj HC'. destruct (Nat.eq_dec j n) as [->|Hne]; [exfalso; apply (HN cost'); auto|apply (HB j); auto; lia].
Qed.

Lemma trace_inv : forall (st : nat -> sst) n, LI [] (st O) ->
  (forall i, (i < n)%nat -> s_t (st i) <= g_end c /\ iter1 c (st i) = Ok (st (S i))) ->
  forall k, (k <= n)%nat -> exists ex, LI ex (st k).
Proof.
  intros st n H0 Hst k. induction k as [|k IH]; intros Hk; [eauto|].
  destruct IH as [ex L]; [lia|]. destruct (Hst k ltac:(lia)) as [T1 T2].
  destruct (iter1_inv c l0 r0 sw0 prev0 dT_pos init_nn _ _ _ L T1 T2) as (adds' & _ & L'). eauto.
Qed.

Lemma landing_chosen : forall (st : nat -> sst) m n, LI [] (st O) -> s_tOpt (st O) < 0 -> (m <= n)%nat ->
  (forall i, (i <= n)%nat -> s_t (st i) <= g_end c /\ iter1 c (st i) = Ok (st (S i))) ->
  (m = O \/ exists m', m = S m' /\ ~ same_feet (st m') (st m)) ->
  (forall i, (m <= i < n)%nat -> same_feet (st i) (st (S i))) ->
  ~ same_feet (st n) (st (S n)) ->
  exists x, fsteps (if s_swingLeft (st n) then s_left (st (S n)) else s_right (st (S n))) = fsteps (swingOf (st n)) ++ [x]
    /\ fsteps (if s_swingLeft (st n) then s_right (st (S n)) else s_left (st (S n))) = fsteps (stanceOf (st n))
    /\ ((exists i cost, (m <= i < n)%nat /\ candidate c g (st i) cost
            /\ (forall j cost', (m <= j < n)%nat -> candidate c g (st j) cost' -> cost <= cost')
            /\ st_time x = s_t (st i) /\ stands_at g (s_swingLeft (st n)) (g_sol c (st_time x)) x)
        \/ ((forall j cost', (m <= j < n)%nat -> ~ candidate c g (st j) cost')
            /\ st_time x = s_t (st n)
            /\ parallel_to g (negb (s_swingLeft (st n))) (s_prev (st n)) (s_swingLeft (st n)) x)).
Proof.
  intros st m n H0 Hneg Hmn Hst Hm Hsame Hdiff.
  assert (HL : forall k, (k <= n)%nat -> exists ex, LI ex (st k)) by (apply trace_inv; auto; intros; apply Hst; lia).
  assert (Hm0 : s_tOpt (st m) < 0).
  { destruct Hm as [->|(m' & -> & Hc)]; [auto|]. destruct (HL m' ltac:(lia)) as [ex L].
    destruct (Hst m' ltac:(lia)) as [T1 T2]. destruct (iter_place _ _ _ L T1 T2 Hc) as (x & _ & _ & E & _). exact E. }
  destruct (HL m Hmn) as [exm Lm].
  destruct (best_invariant st exm m n Lm Hmn) as [HB [exn Ln]]; auto.
  { intros i Hi. destruct (Hst i ltac:(lia)). auto. }
  destruct (Hst n ltac:(lia)) as [T1 T2].
  destruct (iter_place _ _ _ Ln T1 T2 Hdiff) as (x & X1 & X2 & _ & X3).
  exists x. split; [exact X1|]. split; [exact X2|].
  destruct HB as [[B1 B2]|(i & Hi & B1 & B2 & B3)].
  - right. destruct X3 as [(? & _)|(_ & X4 & X5)]; [lra|]. auto.
  - left. destruct X3 as [(_ & X4 & X5)|(X4 & _)].
    + exists i, (s_minCost (st n)). rewrite X4. split; [lia|]. split; [exact B2|]. split; [exact B3|]. split; [exact B1|exact X5].
    + exfalso. destruct (HL i ltac:(lia)) as [exi [Li _]]. destruct Li. lra.
Qed.
End Opt.

(** The states of the main loop of a finished search. *)
Lemma run_loop_trace : forall c fuel s s', run_loop c fuel s = LDone s' ->
  exists (st : nat -> sst) N, st O = s /\ st N = s' /\ g_end c < s_t s'
    /\ forall i, (i < N)%nat -> s_t (st i) <= g_end c /\ iter1 c (st i) = Ok (st (S i)).
Proof.
  intros c. induction fuel as [|fuel IH]; intros s s' H; simpl in H; destruct (Rleb (s_t s) (g_end c)) eqn:E; try discriminate.
  - apply Rleb_false in E. injection H as <-. exists (fun _ => s), O. repeat split; auto; lia.
  - apply Rleb_true in E. destruct (iter1 c s) as [s1| |] eqn:E1; try discriminate.
    destruct (IH _ _ H) as (st & N & A & B & C & D).
    exists (fun k => match k with O => s | S k => st k end), (S N). repeat split; auto.
    + destruct i; [exact E|]. apply D; lia.
    + destruct i; [rewrite A; exact E1|]. apply D; lia.
  - apply Rleb_false in E. injection H as <-. exists (fun _ => s), O. repeat split; auto; lia.
Qed.
