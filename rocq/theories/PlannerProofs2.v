(** Proofs about whole planning calls. *)
From Coq Require Import Reals Lra Lia String List Bool.
From Verif Require Import Prelude FootPrint FootPrintSpec FootPrintProofs UnicycleFoot Ellipse Optimization PlannerSearch Planner FootSpec FootProofs PlannerSpec PlannerProofs.
Import ListNotations.
Open Scope R_scope.

Lemma deal_app2 : forall a b sw,
  deal sw (a ++ b) = (fst (deal sw a) ++ fst (deal (turn sw (length a)) b),
                      snd (deal sw a) ++ snd (deal (turn sw (length a)) b)).
Proof.
  induction a as [|x a IH]; intros b sw; [simpl; destruct (deal sw b); reflexivity|].
  cbn [app deal length turn]. rewrite IH, turn_negb.
  destruct (deal (negb sw) a) as [p q]. destruct sw; reflexivity.
Qed.

Lemma deal_length : forall a sw, (length (fst (deal sw a)) + length (snd (deal sw a)) = length a)%nat.
Proof.
  induction a as [|x a IH]; intros sw; [reflexivity|]. cbn [deal length]. specialize (IH (negb sw)).
  destruct (deal (negb sw) a) as [p q]. destruct sw; simpl in *; lia.
Qed.

Lemma tiny_near : forall f ps u g b, ft_getLast f = Some ps -> ft_isTiny u f = true ->
  ft_dist f = off g b -> ft_yaw f = yaw g b -> near_stance g b u (ft_minStep f) (ft_minAngle f) ps.
Proof.
  intros f ps u g b Hl Ht Hd Hy. unfold ft_isTiny in Ht. rewrite Hl in Ht.
  apply andb_true_iff in Ht. destruct Ht as [H1 H2]. apply Rltb_true in H1, H2.
  exists (MkStep (vadd (u_pos u) (rot (u_angle u) (ft_dist f))) (u_angle u + yaw g b) 0 EmptyString).
  split; [|split].
  - split; [|reflexivity]. simpl st_pos. rewrite Hd. apply vec2_ext; simpl; ring.
  - unfold dist2d. cbn [st_pos].
    match goal with |- sqrt ?a < _ => match type of H1 with sqrt ?b < _ => replace a with b by ring end end. exact H1.
  - cbn [st_angle]. unfold ft_angleFromStep in H2. rewrite Hy in H2.
    replace (st_angle ps - (u_angle u + yaw g b)) with (st_angle ps - yaw g b - u_angle u) by ring. exact H2.
Qed.

Definition stance_of (sw : bool) (l r : foot) : foot := if sw then r else l.
Definition swing_of (sw : bool) (l r : foot) : foot := if sw then l else r.

Lemma geom_swing : forall sw l r, off (geom_of l r) sw = ft_dist (swing_of sw l r) /\ yaw (geom_of l r) sw = ft_yaw (swing_of sw l r).
Proof. intros [|] l r; simpl; auto. Qed.
Lemma geom_stance : forall sw l r, off (geom_of l r) (negb sw) = ft_dist (stance_of sw l r) /\ yaw (geom_of l r) (negb sw) = ft_yaw (stance_of sw l r).
Proof. intros [|] l r; simpl; auto. Qed.

Lemma stands_swing : forall sw l r u t n,
  stands_at (geom_of l r) sw u (MkStep (vadd (u_pos u) (rot (u_angle u) (ft_dist (swing_of sw l r)))) (u_angle u + ft_yaw (swing_of sw l r)) t n).
Proof.
  intros. destruct (geom_swing sw l r) as [E1 E2]. split; cbn [st_pos st_angle]; rewrite ?E1, ?E2; [|reflexivity].
  apply vec2_ext; simpl; ring.
Qed.
Lemma stands_stance : forall sw l r u t n,
  stands_at (geom_of l r) (negb sw) u (MkStep (vadd (u_pos u) (rot (u_angle u) (ft_dist (stance_of sw l r)))) (u_angle u + ft_yaw (stance_of sw l r)) t n).
Proof.
  intros. destruct (geom_stance sw l r) as [E1 E2]. split; cbn [st_pos st_angle]; rewrite ?E1, ?E2; [|reflexivity].
  apply vec2_ext; simpl; ring.
Qed.
Lemma stands_state : forall sw l r s u, ft_stateFromStep (stance_of sw l r) s = Some u ->
  stands_at (geom_of l r) (negb sw) u s.
Proof.
  intros sw l r s u H. destruct (geom_stance sw l r) as [E1 E2].
  unfold ft_stateFromStep in H. destruct (negb (ft_distSet _)); [discriminate|]. injection H as <-.
  unfold ft_angleFromStep. split; cbn [u_pos u_angle]; rewrite ?E1, ?E2; [|ring].
  apply vec2_ext; simpl; ring.
Qed.

(** What addTerminalStep does. *)
Definition swing_near (g : geom) (sw : bool) (stance_last : step) (swing : foot) : Prop :=
  exists u ps, stands_at g (negb sw) u stance_last /\ ft_getLast swing = Some ps
    /\ near_stance g sw u (ft_minStep swing) (ft_minAngle swing) ps.

Lemma terminal_spec : forall c sw l r u l' r' prev,
  0 <= g_nomT c ->
  ft_getLast (stance_of sw l r) = Some prev ->
  terminal_step c sw l r u = Ok (l', r') ->
  exists term, terminal_placement (g_prob c) (geom_of l r) u sw prev term
    /\ chain (nominal_after (g_init c) (g_nomT c)) sw prev term
    /\ fsteps l' = fsteps l ++ fst (deal sw term) /\ fsteps r' = fsteps r ++ snd (deal sw term)
    /\ same_params l' l /\ same_params r' r
    /\ (term = [] -> l' = l /\ r' = r /\ swing_near (geom_of l r) sw prev (swing_of sw l r)).
Proof.
  intros c sw l r u l' r' prev HnomT Hprev H. unfold terminal_step in H.
  change (if sw then r else l) with (stance_of sw l r) in H.
  change (if sw then l else r) with (swing_of sw l r) in H.
  rewrite Hprev in H.
  destruct (get_rPl sw l r u) as [rPl|] eqn:E1; [|discriminate].
  destruct (get_rel sw l r u) as [rel|] eqn:E2; [|discriminate].
  destruct (ft_posFromUnicycle (swing_of sw l r) u) as [pos|] eqn:E3; [|discriminate].
  cbv zeta in H.
  set (stepTime := Rmax (g_init c + g_nomT c) (st_time prev + g_nomT c)) in *.
  assert (Hst : stepTime = Rmax (g_init c) (st_time prev) + g_nomT c).
  { unfold stepTime, Rmax. destruct (Rle_dec (g_init c) (st_time prev)), (Rle_dec (g_init c + g_nomT c) (st_time prev + g_nomT c)); lra. }
  assert (Hst2 : g_init c <= stepTime).
  { rewrite Hst. pose proof (Rmax_l (g_init c) (st_time prev)). lra. }
  match type of H with (if ?b then _ else _) = _ => destruct b eqn:Ec end.
  - apply andb_true_iff in Ec. destruct Ec as [Ec _]. apply andb_true_iff in Ec. destruct Ec as [Ec _].
    destruct (ft_addFromUnicycle u stepTime (swing_of sw l r)) as [fa oka] eqn:Ea.
    destruct oka; simpl in H; [|discriminate].
    destruct (ft_addFromUnicycle u (stepTime + g_nomT c) (stance_of sw l r)) as [fb okb] eqn:Eb.
    destruct okb; simpl in H; [|discriminate].
    apply addFrom_inv in Ea. destruct Ea as (A1 & A2 & A3 & A4 & A5 & A6 & A7 & A8 & A9).
    apply addFrom_inv in Eb. destruct Eb as (B1 & B2 & B3 & B4 & B5 & B6 & B7 & B8 & B9).
    match type of A3 with _ = _ ++ [?y] => set (x := y) in * end.
    match type of B3 with _ = _ ++ [?y] => set (z := y) in * end.
    exists [x; z].
    assert (Hpos : pos = st_pos x).
    { unfold ft_posFromUnicycle in E3. rewrite A1 in E3; simpl in E3. injection E3 as <-. reflexivity. }
    split; [|split; [|split; [|split; [|split; [|split]]]]].
    + apply TpFinal; [split; [apply stands_swing|]|apply stands_stance].
      subst pos.
      assert (Hprev' : (if sw then ft_getLast r else ft_getLast l) = Some prev) by (destruct sw; exact Hprev).
      assert (E3' : ft_posFromUnicycle (if sw then l else r) u = Some (st_pos x)) by exact E3.
      pose proof (proj1 (feasible_admissible (g_prob c) sw l r u prev _ _ rPl rel (st_pos x) Hprev' E1 E2 E3') Ec) as F. destruct F as (F1 & F2 & F3 & F4 & F5).
      split; [exact F1|]. split; [exact F2|]. split; [|split; [exact F4|exact F5]].
      intros a Ha. specialize (F3 a Ha). rewrite Rabs_Rabsolu, Rabs_minus_sym in F3.
      destruct (geom_stance sw l r) as [_ ->]. exact F3.
    + unfold chain, nominal_after. simpl st_time. split; [exact Hst|]. split; [|exact I].
      rewrite (Rmax_right _ _ Hst2). reflexivity.
    + destruct sw; injection H as <- <-; simpl; unfold fsteps; assumption.
    + destruct sw; injection H as <- <-; simpl; unfold fsteps; assumption.
    + unfold stance_of, swing_of in *; destruct sw; injection H as <- <-; unfold same_params; intuition congruence.
    + unfold stance_of, swing_of in *; destruct sw; injection H as <- <-; unfold same_params; intuition congruence.
    + discriminate.
  - destruct (ft_stateFromStep (stance_of sw l r) prev) as [up|] eqn:Eu; [|discriminate].
    destruct (ft_isTiny up (swing_of sw l r)) eqn:Et; simpl in H.
    + injection H as <- <-. exists []. simpl. rewrite !app_nil_r.
      split; [constructor|]. repeat split; auto.
      destruct (ft_getLast (swing_of sw l r)) as [ps|] eqn:El; [|unfold ft_isTiny in Et; rewrite El in Et; discriminate].
      exists up, ps. split; [apply stands_state; exact Eu|]. split; [exact El|].
      destruct (geom_swing sw l r) as [G1 G2]. apply tiny_near; auto.
    + destruct (ft_addParallel (stance_of sw l r) stepTime (swing_of sw l r)) as [fa oka] eqn:Ea.
      destruct oka; simpl in H; [|discriminate].
      apply addParallel_inv in Ea. destruct Ea as (A1 & os & A2 & A3 & A4 & A5 & A6 & A7 & A8 & A9).
      rewrite Hprev in A2; injection A2 as <-.
      match type of A3 with _ = _ ++ [?y] => set (x := y) in * end.
      exists [x].
      split; [|split; [|split; [|split; [|split; [|split]]]]].
      * apply TpParallel. exists up. split; [apply stands_state; exact Eu|].
        unfold ft_stateFromStep in Eu. destruct (negb (ft_distSet (stance_of sw l r))); [discriminate|].
        injection Eu as <-. unfold ft_angleFromStep. destruct (geom_swing sw l r) as [G1 G2].
        split; cbn [u_pos u_angle]; rewrite ?G1, ?G2; [|reflexivity]. apply vec2_ext; simpl; ring.
      * unfold chain, nominal_after. simpl st_time. split; [exact Hst|exact I].
      * destruct sw; injection H as <- <-; simpl; unfold fsteps; rewrite ?app_nil_r; auto.
      * destruct sw; injection H as <- <-; simpl; unfold fsteps; rewrite ?app_nil_r; auto.
      * unfold stance_of, swing_of in *; destruct sw; injection H as <- <-; unfold same_params; intuition congruence.
      * unfold stance_of, swing_of in *; destruct sw; injection H as <- <-; unfold same_params; intuition congruence.
      * discriminate.
Qed.

Lemma clearLast_steps : forall fp, fp_steps (fp_clearLast fp) = removelast (fp_steps fp) /\ fp_name (fp_clearLast fp) = fp_name fp.
Proof.
  intros [st n]. unfold fp_clearLast, fp_number; simpl. destruct (Nat.eqb (length st) 0) eqn:E; simpl; auto.
  apply Nat.eqb_eq, length_zero_iff_nil in E. subst; auto.
Qed.

Lemma last_opt_In : forall {A} (l : list A) x, last_opt l = Some x -> In x l.
Proof. intros A l x H. destruct (last_opt_some _ _ H) as [r ->]. apply in_or_app; right; left; reflexivity. Qed.

Lemma sync_spec : forall fl fr rs sl fl' fr' sl',
  nonneg_times (fp_steps fl) -> nonneg_times (fp_steps fr) ->
  sync_feet fl fr rs sl = Ok (fl', fr', sl') ->
  synchronised (fp_steps fl) (fp_steps fr) (fp_steps fl') (fp_steps fr') rs sl sl'
  /\ fp_name fl' = fp_name fl /\ fp_name fr' = fp_name fr.
Proof.
  intros fl fr rs sl fl' fr' sl' Nl Nr H. unfold sync_feet, fp_getLast in H.
  destruct (last_opt (fp_steps fl)) as [a|] eqn:Ea; [|discriminate].
  destruct (last_opt (fp_steps fr)) as [b|] eqn:Eb; [|discriminate].
  pose proof (proj1 (Forall_forall _ _) Nl _ (last_opt_In _ _ Ea)) as Pa. simpl in Pa.
  pose proof (proj1 (Forall_forall _ _) Nr _ (last_opt_In _ _ Eb)) as Pb. simpl in Pb.
  destruct (Rgtb (st_time a) (st_time b)) eqn:E1; unfold Rgtb in E1; [apply Rltb_true in E1|apply Rltb_false in E1].
  - unfold fp_addStep in H. destruct (Rltb (st_time a) 0) eqn:E2; [apply Rltb_true in E2; lra|].
    injection H as <- <- <-. destruct (clearLast_steps fr) as [C1 C2]. simpl. split; [|split; auto].
    exists a, b, a. eexists. rewrite C1. split; [exact Ea|]. split; [exact Eb|]. split; [exact Ea|].
    split; [apply last_opt_app|]. rewrite Rmax_left by lra. simpl. rewrite removelast_last.
    repeat split; auto; try lra; intros; destruct rs; try congruence; try lra.
  - destruct (Rltb (st_time a) (st_time b)) eqn:E3; [apply Rltb_true in E3|apply Rltb_false in E3].
    + unfold fp_addStep in H. destruct (Rltb (st_time b) 0) eqn:E2; [apply Rltb_true in E2; lra|].
      injection H as <- <- <-. destruct (clearLast_steps fl) as [C1 C2]. simpl. split; [|split; auto].
      exists a, b. eexists. exists b. rewrite C1. split; [exact Ea|]. split; [exact Eb|].
      split; [apply last_opt_app|]. split; [exact Eb|]. rewrite Rmax_right by lra. simpl. rewrite removelast_last.
      repeat split; auto; try lra; intros; destruct rs; try congruence; try lra.
    + injection H as <- <- <-. split; [|split; auto]. assert (st_time a = st_time b) by lra.
      exists a, b, a, b. rewrite Rmax_left by lra. repeat split; auto; try lra; intros; lra.
Qed.

Lemma sync_defined : forall fl fr rs sl a b, fp_getLast fl = Some a -> fp_getLast fr = Some b ->
  exists x, sync_feet fl fr rs sl = Ok x.
Proof.
  intros fl fr rs sl a b Ha Hb. unfold sync_feet. rewrite Ha, Hb. destruct (Rgtb _ _); [|destruct (Rltb _ _)];
  try destruct (fp_addStep _ _ _ _); eauto.
Qed.

(** dT = 0: the loop never ends. *)
Lemma loop_stuck_zero : forall c fuel s s', g_dT c = 0 -> s_tOpt s <= 0 -> s_t s = g_init c -> 0 <= s_offset s ->
  g_init c < g_end c -> run_loop c fuel s <> LDone s'.
Proof.
  intros c fuel; induction fuel as [|fuel IH]; intros s s' Hd Ho Ht Hoff He; simpl.
  - destruct (Rleb (s_t s) (g_end c)) eqn:E; [discriminate|]. apply Rleb_false in E. lra.
  - destruct (Rleb (s_t s) (g_end c)) eqn:E; [|apply Rleb_false in E; lra].
    assert (Hi : iter1 c s = Ok (set_t s (advance c (s_t s)))).
    { unfold iter1, body. assert (E1 : Rgtb (s_t s) (g_init c + s_offset s) = false) by (unfold Rgtb; apply Rltb_false; lra).
      rewrite E1, andb_false_r. reflexivity. }
    rewrite Hi. apply IH; auto. simpl. unfold advance. rewrite Hd. rcases; simpl; lra.
Qed.

(** The whole search. *)
Lemma search_spec : forall c fuel addTerm reset l0 r0 sw0 first sl l' r' sw' sl' prev0,
  0 <= g_dT c -> 0 <= g_minT c -> 0 <= g_nomT c -> 0 <= g_init c -> g_init c < g_end c ->
  ft_distSet l0 = true -> ft_distSet r0 = true ->
  nonneg_times (fsteps l0) -> nonneg_times (fsteps r0) ->
  ft_getLast (stance_of sw0 l0 r0) = Some prev0 -> st_time prev0 <= g_init c ->
  search_steps c fuel addTerm reset l0 r0 sw0 first sl = PDone l' r' sw' sl' ->
  exists adds term,
    chain (search_placement (g_prob c) (geom_of l0 r0) (g_sol c) (g_init c) (g_end c) (g_minT c)) sw0 prev0 adds
    /\ terminal_placement (g_prob c) (geom_of l0 r0) (g_sol c (g_end c)) (turn sw0 (length adds)) (List.last adds prev0) term
    /\ chain (nominal_after (g_init c) (g_nomT c)) (turn sw0 (length adds)) (List.last adds prev0) term
    /\ (addTerm = false -> term = [])
    /\ same_params l' l0 /\ same_params r' r0
    /\ (addTerm = true -> exists a b, ft_getLast l' = Some a /\ ft_getLast r' = Some b
        /\ feet_parallel (geom_of l0 r0) (if turn sw0 (length adds) then ft_minStep l0 else ft_minStep r0)
                         (if turn sw0 (length adds) then ft_minAngle l0 else ft_minAngle r0) a b)
    /\ ((adds ++ term <> [] /\ sl' = sl
         /\ fsteps l' = fsteps l0 ++ fst (deal sw0 (adds ++ term)) /\ fsteps r' = fsteps r0 ++ snd (deal sw0 (adds ++ term)))
        \/ (adds ++ term = [] /\ synchronised (fsteps l0) (fsteps r0) (fsteps l') (fsteps r') reset sl sl')).
Proof.
  intros c fuel addTerm reset l0 r0 sw0 first sl l' r' sw' sl' prev0 HdT HminT HnomT Hinit Hend DL DR NL NR Hprev Hpt H.
  unfold search_steps in H. change (if sw0 then r0 else l0) with (stance_of sw0 l0 r0) in H. rewrite Hprev in H.
  cbv zeta in H. set (s0 := MkS l0 r0 sw0 first (g_init c) (-1) (10 ^ 10) (g_init c - st_time prev0) (if first then g_nomT c else 0) prev0) in *.
  destruct (run_loop c fuel s0) as [s| |] eqn:Er; try discriminate.
  assert (HdT' : 0 < g_dT c).
  { destruct (Rle_lt_or_eq_dec _ _ HdT) as [?|E]; auto. exfalso. eapply (loop_stuck_zero c fuel s0 s); simpl; auto; try lra.
    destruct first; lra. }
  assert (L0 : LInv c l0 r0 sw0 prev0 [] s0).
  { split; [constructor|]; simpl; rewrite ?app_nil_r; auto; try (unfold same_params; tauto); try lra.
    all: try (destruct first; lra); try (left; lra). }
  destruct (run_loop_inv c l0 r0 sw0 prev0 HdT' Hinit fuel [] s0 s L0 Er) as (adds & [L _] & _).
  simpl in L. destruct L as [H1 H2 H3 H4 H5 H6 H7 H8 H9 H10 H11 H12 H13].
  assert (Hst : ft_getLast (stance_of (s_swingLeft s) (s_left s) (s_right s)) = Some (s_prev s)) by exact H8.
  assert (Hg : geom_of (s_left s) (s_right s) = geom_of l0 r0).
  { destruct H3 as (_ & A & B & _), H4 as (_ & A' & B' & _). unfold geom_of. rewrite A, B, A', B'. reflexivity. }
  assert (HT : exists l r term, (if addTerm then terminal_step c (s_swingLeft s) (s_left s) (s_right s) (g_sol c (g_end c)) else Ok (s_left s, s_right s)) = Ok (l, r)
     /\ terminal_placement (g_prob c) (geom_of l0 r0) (g_sol c (g_end c)) (s_swingLeft s) (s_prev s) term
     /\ chain (nominal_after (g_init c) (g_nomT c)) (s_swingLeft s) (s_prev s) term
     /\ (addTerm = false -> term = [])
     /\ fsteps l = fsteps l0 ++ fst (deal sw0 (adds ++ term)) /\ fsteps r = fsteps r0 ++ snd (deal sw0 (adds ++ term))
     /\ same_params l l0 /\ same_params r r0
     /\ (addTerm = true -> term = [] -> swing_near (geom_of l0 r0) (s_swingLeft s) (s_prev s) (swing_of (s_swingLeft s) l r)
           /\ ft_getLast (stance_of (s_swingLeft s) l r) = Some (s_prev s))).
  { destruct addTerm.
    - destruct (terminal_step c (s_swingLeft s) (s_left s) (s_right s) (g_sol c (g_end c))) as [[l r]| |] eqn:Et; try discriminate.
      destruct (terminal_spec _ _ _ _ _ _ _ _ HnomT Hst Et) as (term & T1 & T2 & T3 & T4 & T5 & T6 & T7).
      rewrite Hg in T1, T7. exists l, r, term. split; [reflexivity|]. split; [exact T1|]. split; [exact T2|].
      split; [discriminate|]. rewrite deal_app2, <- H5; simpl. rewrite T3, T4, H1, H2, !app_assoc.
      split; [reflexivity|]. split; [reflexivity|].
      split; [unfold same_params in *; intuition congruence|]. split; [unfold same_params in *; intuition congruence|].
      intros _ Hn. destruct (T7 Hn) as (-> & -> & ?). auto.
    - exists (s_left s), (s_right s), []. rewrite app_nil_r. repeat split; auto; try constructor; try apply H3; try apply H4; discriminate. }
  destruct HT as (l & r & term & T0 & T1 & T2 & T3 & T4 & T5 & T6 & T7 & T8). rewrite T0 in H.
  exists adds, term. rewrite <- H5, <- H6. split; [exact H7|]. split; [exact T1|]. split; [exact T2|]. split; [exact T3|].
  (* last steps before synchronisation *)
  assert (HP : addTerm = true -> exists a b, ft_getLast l = Some a /\ ft_getLast r = Some b
     /\ feet_parallel (geom_of l0 r0) (if s_swingLeft s then ft_minStep l0 else ft_minStep r0)
                      (if s_swingLeft s then ft_minAngle l0 else ft_minAngle r0) a b).
  { intros Ht. inversion T1 as [E|x Hx E|x y Hx Hy E]; subst term.
    - destruct (T8 Ht eq_refl) as ((u & ps & U1 & U2 & U3) & U4).
      destruct T6 as (_ & _ & _ & P1 & P2 & _), T7 as (_ & _ & _ & Q1 & Q2 & _).
      unfold stance_of, swing_of in *. destruct (s_swingLeft s).
      + exists ps, (s_prev s). repeat split; auto. right. exists u. right. split; [exact U1|]. rewrite <- P1, <- P2. exact U3.
      + exists (s_prev s), ps. repeat split; auto. right. exists u. left. split; [exact U1|]. rewrite <- Q1, <- Q2. exact U3.
    - rewrite deal_app2, <- H5 in T4, T5; simpl in T4, T5. rewrite app_assoc, <- H1 in T4. rewrite app_assoc, <- H2 in T5.
      unfold stance_of in Hst. destruct (s_swingLeft s) eqn:Es; simpl in T4, T5; rewrite ?app_nil_r in *.
      + exists x, (s_prev s). split; [eapply getLast_app; exact T4|]. split.
        * unfold ft_getLast, fp_getLast in *. unfold fsteps in T5. rewrite T5. exact Hst.
        * left. destruct Hx as (u & ? & ?). exists u; auto.
      + exists (s_prev s), x. split; [|split; [eapply getLast_app; exact T5|]].
        * unfold ft_getLast, fp_getLast in *. unfold fsteps in T4. rewrite T4. exact Hst.
        * left. destruct Hx as (u & ? & ?). exists u; auto.
    - rewrite deal_app2, <- H5 in T4, T5; simpl in T4, T5. rewrite app_assoc in T4, T5.
      destruct Hx as [Hx _]. destruct (s_swingLeft s) eqn:Es; simpl in T4, T5.
      + exists x, y. split; [eapply getLast_app; exact T4|]. split; [eapply getLast_app; exact T5|]. left. exists (g_sol c (g_end c)); auto.
      + exists y, x. split; [eapply getLast_app; exact T4|]. split; [eapply getLast_app; exact T5|]. left. exists (g_sol c (g_end c)); auto. }
  destruct (Nat.eqb (ft_number l0) (ft_number l) && Nat.eqb (ft_number r0) (ft_number r)) eqn:En.
  - apply andb_true_iff in En. destruct En as [En1 En2]. apply Nat.eqb_eq in En1, En2.
    unfold ft_number, fp_number in En1, En2. unfold fsteps in T4, T5. rewrite T4, app_length in En1. rewrite T5, app_length in En2.
    pose proof (deal_length (adds ++ term) sw0) as Hdl.
    assert (En0 : adds ++ term = []) by (apply length_zero_iff_nil; lia).
    rewrite En0 in T4, T5; simpl in T4, T5; rewrite app_nil_r in T4, T5.
    destruct (sync_feet (ft_fp l) (ft_fp r) reset sl) as [[[fl fr] sl2]| |] eqn:Esy; try discriminate.
    injection H as <- <- <- <-.
    assert (NL' : nonneg_times (fp_steps (ft_fp l))) by (rewrite T4; exact NL).
    assert (NR' : nonneg_times (fp_steps (ft_fp r))) by (rewrite T5; exact NR).
    destruct (sync_spec _ _ _ _ _ _ _ NL' NR' Esy) as (S1 & S2 & S3).
    split; [unfold same_params, ft_withFP in *; simpl; intuition congruence|].
    split; [unfold same_params, ft_withFP in *; simpl; intuition congruence|].
    split.
    + intros Ht. destruct (HP Ht) as (a & b & A1 & A2 & A3).
      destruct S1 as (a0 & b0 & a' & b' & B1 & B2 & B3 & B4 & _ & _ & _ & _ & B5 & B6 & _).
      unfold ft_getLast, fp_getLast in A1, A2. rewrite A1 in B1. rewrite A2 in B2. injection B1 as <-. injection B2 as <-.
      exists a', b'. unfold ft_getLast, fp_getLast; simpl. split; [exact B3|]. split; [exact B4|].
      unfold placed in B5, B6. injection B5 as P1 P2. injection B6 as P3 P4.
      unfold feet_parallel, parallel_to, near_stance, stands_at in *. rewrite P1, P2, P3, P4. exact A3.
    + right. split; [exact En0|]. unfold fsteps; simpl. rewrite <- T4, <- T5. exact S1.
  - injection H as <- <- <- <-. split; [exact T6|]. split; [exact T7|]. split; [exact HP|].
    left. split; [|split; [reflexivity|auto]].
    intros E0. rewrite E0 in T4, T5; simpl in T4, T5; rewrite app_nil_r in T4, T5.
    unfold ft_number, fp_number in En. unfold fsteps in T4, T5. rewrite T4, T5, !Nat.eqb_refl in En. discriminate.
Qed.
