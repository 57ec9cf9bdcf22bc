From Coq Require Import Reals Lra Lia List Bool String.
From Verif Require Import Prelude FootPrint FootPrintSpec FootPrintProofs UnicycleFoot Ellipse Optimization PlannerSearch FootSpec.
Import ListNotations.
Open Scope R_scope.

Lemma last_opt_app : forall {A} (l : list A) x, last_opt (l ++ [x]) = Some x.
Proof.
  intros A l x; induction l as [|a l IH]; [reflexivity|]. simpl.
  destruct (l ++ [x]) eqn:E; [destruct l; discriminate|]. rewrite <- E in *. exact IH.
Qed.

Lemma last_opt_map : forall {A B} (f : A -> B) l, last_opt (map f l) = option_map f (last_opt l).
Proof.
  intros A B f l; induction l as [|a l IH] using rev_ind; [reflexivity|].
  rewrite map_app; simpl. rewrite !last_opt_app; reflexivity.
Qed.

Lemma last_opt_none : forall {A} (l : list A), last_opt l = None <-> l = [].
Proof.
  intros A l; split; [|intros ->; reflexivity].
  induction l as [|a l _] using rev_ind; [auto|]. rewrite last_opt_app; discriminate.
Qed.

Lemma last_opt_some : forall {A} (l : list A) x, last_opt l = Some x -> exists r, l = r ++ [x].
Proof.
  intros A l x; induction l as [|a l _] using rev_ind; [discriminate|].
  rewrite last_opt_app. intros [= ->]. eauto.
Qed.

Lemma addFrom_inv : forall u t f f', ft_addFromUnicycle u t f = (f', true) ->
  ft_distSet f = true /\ 0 <= t
  /\ fp_steps (ft_fp f') = fp_steps (ft_fp f) ++
       [MkStep (vadd (u_pos u) (rot (u_angle u) (ft_dist f))) (u_angle u + ft_yaw f) t (fp_name (ft_fp f))]
  /\ fp_name (ft_fp f') = fp_name (ft_fp f) /\ ft_distSet f' = true /\ ft_dist f' = ft_dist f
  /\ ft_yaw f' = ft_yaw f /\ ft_minStep f' = ft_minStep f /\ ft_minAngle f' = ft_minAngle f.
Proof.
  unfold ft_addFromUnicycle; intros u t f f' H.
  destruct (ft_distSet f) eqn:Ed; simpl in H; [|discriminate].
  destruct (fp_addStep _ _ _ _) as [fp' ok] eqn:E. injection H as <- ->.
  apply addStep_accepted in E. destruct E as (H1 & H2 & H3).
  simpl. rewrite H2, H3. tauto.
Qed.

Lemma addFrom_ok : forall u t f, ft_distSet f = true -> 0 <= t -> exists f', ft_addFromUnicycle u t f = (f', true).
Proof.
  intros u t f Hd Ht. unfold ft_addFromUnicycle, fp_addStep. rewrite Hd; simpl.
  destruct (Rltb t 0) eqn:E; [apply Rltb_true in E; lra|]. eauto.
Qed.

Lemma addParallel_inv : forall o t f f', ft_addParallel o t f = (f', true) ->
  0 <= t /\ exists os, ft_getLast o = Some os
  /\ fp_steps (ft_fp f') = fp_steps (ft_fp f) ++
       [MkStep (vadd (st_pos os) (rot (st_angle os - ft_yaw o) (vsub (ft_dist f) (ft_dist o))))
               (st_angle os - ft_yaw o + ft_yaw f) t (fp_name (ft_fp f))]
  /\ fp_name (ft_fp f') = fp_name (ft_fp f) /\ ft_distSet f' = ft_distSet f /\ ft_dist f' = ft_dist f
  /\ ft_yaw f' = ft_yaw f /\ ft_minStep f' = ft_minStep f /\ ft_minAngle f' = ft_minAngle f.
Proof.
  unfold ft_addParallel; intros o t f f' H.
  destruct (Rltb t 0) eqn:Et; [discriminate|]. apply Rltb_false in Et.
  destruct (ft_getLast o) as [os|] eqn:El; [|discriminate].
  unfold ft_angleFromStep in H. destruct (fp_addStep _ _ _ _) as [fp' ok] eqn:E. injection H as <- ->.
  apply addStep_accepted in E. destruct E as (H1 & H2 & H3).
  split; auto. exists os. simpl. rewrite H2, H3. tauto.
Qed.

Lemma addParallel_ok : forall o t f os, ft_getLast o = Some os -> 0 <= t -> exists f', ft_addParallel o t f = (f', true).
Proof.
  intros o t f os Ho Ht. unfold ft_addParallel, fp_addStep. rewrite Ho.
  destruct (Rltb t 0) eqn:E; [apply Rltb_true in E; lra|]. eauto.
Qed.

Lemma getLast_app : forall f l s, fp_steps (ft_fp f) = l ++ [s] -> ft_getLast f = Some s.
Proof. intros f l s H. unfold ft_getLast, fp_getLast. rewrite H. apply last_opt_app. Qed.

(** C03 *)
Lemma vsub_vadd : forall a b, vsub (vadd a b) b = a.
Proof. intros; apply vec2_ext; simpl; ring. Qed.
Lemma vadd_vsub : forall a b, vadd (vsub a b) b = a.
Proof. intros; apply vec2_ext; simpl; ring. Qed.

Lemma state_step_roundtrip : forall f f' u t, ft_addFromUnicycle u t f = (f', true) ->
  exists s, ft_getLast f' = Some s /\ ft_stateFromStep f' s = Some u /\ st_time s = t.
Proof.
  intros f f' u t H. apply addFrom_inv in H.
  destruct H as (Hd & Ht & Hs & Hn & Hd' & Hdd & Hy & _).
  eexists; split; [eapply getLast_app; exact Hs|]. split; [|reflexivity].
  unfold ft_stateFromStep, ft_angleFromStep. rewrite Hd'; simpl. rewrite Hdd, Hy.
  replace (u_angle u + ft_yaw f - ft_yaw f) with (u_angle u) by ring.
  rewrite vsub_vadd. destruct u; reflexivity.
Qed.

Lemma step_state_roundtrip : forall f s u t f', ft_stateFromStep f s = Some u -> ft_addFromUnicycle u t f = (f', true) ->
  exists s', ft_getLast f' = Some s' /\ st_pos s' = st_pos s /\ st_angle s' = st_angle s /\ st_time s' = t
             /\ ft_posFromUnicycle f u = Some (st_pos s).
Proof.
  intros f s u t f' Hu H. apply addFrom_inv in H. destruct H as (Hd & Ht & Hs & _).
  unfold ft_stateFromStep, ft_angleFromStep in Hu. rewrite Hd in Hu; simpl in Hu. injection Hu as <-.
  eexists; split; [eapply getLast_app; exact Hs|]. simpl. rewrite vadd_vsub.
  repeat split; try ring. unfold ft_posFromUnicycle. rewrite Hd; simpl. rewrite vadd_vsub; reflexivity.
Qed.

(** C04 *)
Lemma parallel_same_state : forall o t f f' os, ft_addParallel o t f = (f', true) -> ft_distSet f = true -> ft_distSet o = true ->
  ft_getLast o = Some os ->
  exists s, ft_getLast f' = Some s /\ st_time s = t /\ ft_stateFromStep f' s = ft_stateFromStep o os
            /\ dist2d (st_pos s) (st_pos os) = dist2d (ft_dist f) (ft_dist o).
Proof.
  intros o t f f' os H Hdf Hdo Ho. apply addParallel_inv in H.
  destruct H as (Ht & os' & Ho' & Hs & Hn & Hd & Hdd & Hy & _).
  rewrite Ho in Ho'; injection Ho' as <-.
  eexists; split; [eapply getLast_app; exact Hs|]. split; [reflexivity|]. split.
  - unfold ft_stateFromStep, ft_angleFromStep. rewrite Hd, Hdf, Hdo; simpl. rewrite Hdd, Hy.
    f_equal. replace (st_angle os - ft_yaw o + ft_yaw f - ft_yaw f) with (st_angle os - ft_yaw o) by ring.
    f_equal. rewrite rot_sub. apply vec2_ext; simpl; ring.
  - unfold dist2d; simpl. f_equal.
    set (a := st_angle os - ft_yaw o). pose proof (cs2 a) as Hc.
    set (dx := vx (ft_dist f) - vx (ft_dist o)). set (dy := vy (ft_dist f) - vy (ft_dist o)).
    replace (vx (st_pos os) + (cos a * dx - sin a * dy) - vx (st_pos os)) with (cos a * dx - sin a * dy) by ring.
    replace (vy (st_pos os) + (sin a * dx + cos a * dy) - vy (st_pos os)) with (sin a * dx + cos a * dy) by ring.
    replace ((cos a * dx - sin a * dy) * ((cos a * dx - sin a * dy) * 1) + (sin a * dx + cos a * dy) * ((sin a * dx + cos a * dy) * 1))
      with ((cos a * cos a + sin a * sin a) * (dx * dx + dy * dy)) by ring.
    rewrite Hc. ring.
Qed.

Lemma nominal_offsets_distance : forall w, 0 <= w -> dist2d (V2 0 (w / 2)) (V2 0 (- w / 2)) = w.
Proof.
  intros w Hw. unfold dist2d; simpl. replace ((0 - 0) * ((0 - 0) * 1) + (w / 2 - - w / 2) * ((w / 2 - - w / 2) * 1)) with (w * w) by field.
  apply sqrt_square; auto.
Qed.

(** C05 *)
Lemma mv_pt_rot : forall g p, mv_pt g p = vadd (rot (rm_phi g) p) (rm_tr g).
Proof. intros; apply vec2_ext; simpl; reflexivity. Qed.

Lemma mv_pt_sub : forall g p q, vsub (mv_pt g p) (mv_pt g q) = rot (rm_phi g) (vsub p q).
Proof. intros; apply vec2_ext; simpl; ring. Qed.

Lemma rotT_mv : forall g a v, rotT (a + rm_phi g) (rot (rm_phi g) v) = rotT a v.
Proof.
  intros g a v. rewrite !rotT_as_rot, <- rot_plus. f_equal. ring.
Qed.

Lemma mv_getLast : forall g f, ft_getLast (mv_foot g f) = option_map (mv_step g) (ft_getLast f).
Proof. intros; unfold ft_getLast, fp_getLast; simpl. apply last_opt_map. Qed.

Lemma mv_newpos : forall g u d, vadd (u_pos (mv_state g u)) (rot (u_angle (mv_state g u)) d) = mv_pt g (vadd (u_pos u) (rot (u_angle u) d)).
Proof.
  intros; simpl. rewrite !mv_pt_rot, rot_add, Rplus_comm, rot_plus. apply vec2_ext; simpl; ring.
Qed.

Lemma mv_posFrom : forall g f u, ft_posFromUnicycle (mv_foot g f) (mv_state g u) = option_map (mv_pt g) (ft_posFromUnicycle f u).
Proof.
  intros; unfold ft_posFromUnicycle. change (ft_distSet (mv_foot g f)) with (ft_distSet f).
  destruct (ft_distSet f); cbn [negb option_map]; [|reflexivity].
  change (ft_dist (mv_foot g f)) with (ft_dist f). rewrite mv_newpos. reflexivity.
Qed.

Lemma rPl_invariant : forall g sw l r u, get_rPl sw (mv_foot g l) (mv_foot g r) (mv_state g u) = get_rPl sw l r u.
Proof.
  intros; unfold get_rPl. destruct sw; rewrite mv_getLast, mv_posFrom.
  - destruct (ft_getLast r); simpl; [|reflexivity]. destruct (ft_posFromUnicycle l u); simpl; [|reflexivity].
    rewrite mv_pt_sub, rotT_mv; reflexivity.
  - destruct (ft_getLast l); simpl; [|reflexivity]. destruct (ft_posFromUnicycle r u); simpl; [|reflexivity].
    rewrite mv_pt_sub, rotT_mv; reflexivity.
Qed.

Lemma rel_invariant : forall g sw l r u, get_rel sw (mv_foot g l) (mv_foot g r) (mv_state g u) = get_rel sw l r u.
Proof.
  intros; unfold get_rel. destruct sw; rewrite mv_getLast, mv_posFrom.
  - destruct (ft_getLast r); simpl; [|reflexivity]. destruct (ft_posFromUnicycle l u); simpl; [|reflexivity].
    rewrite mv_pt_sub, rotT_mv; reflexivity.
  - destruct (ft_getLast l); simpl; [|reflexivity]. destruct (ft_posFromUnicycle r u); simpl; [|reflexivity].
    rewrite mv_pt_sub, rotT_mv; reflexivity.
Qed.

Lemma tiny_invariant : forall g f u, ft_isTiny (mv_state g u) (mv_foot g f) = ft_isTiny u f.
Proof.
  intros; unfold ft_isTiny. rewrite mv_getLast. destruct (ft_getLast f) as [ps|]; [|reflexivity].
  cbn [option_map]. change (ft_dist (mv_foot g f)) with (ft_dist f). rewrite mv_newpos.
  change (ft_minStep (mv_foot g f)) with (ft_minStep f). change (ft_minAngle (mv_foot g f)) with (ft_minAngle f).
  set (np := vadd (u_pos u) (rot (u_angle u) (ft_dist f))).
  change (st_pos (mv_step g ps)) with (mv_pt g (st_pos ps)).
  assert (E : forall a b, (vx (mv_pt g a) - vx (mv_pt g b)) * (vx (mv_pt g a) - vx (mv_pt g b)) + (vy (mv_pt g a) - vy (mv_pt g b)) * (vy (mv_pt g a) - vy (mv_pt g b))
              = (vx a - vx b) * (vx a - vx b) + (vy a - vy b) * (vy a - vy b)).
  { intros a b. pose proof (vnorm2_rot (rm_phi g) (vsub a b)) as H. rewrite <- mv_pt_sub in H. exact H. }
  rewrite E. f_equal. f_equal. f_equal. unfold ft_angleFromStep; simpl. ring.
Qed.

Lemma inside_invariant : forall g e p, ell_inside (mv_ell g e) (mv_pt g p) = ell_inside e p.
Proof.
  intros; unfold ell_inside. change (e_set (mv_ell g e)) with (e_set e). destruct (e_set e); simpl negb; cbv iota; [|reflexivity].
  replace (ell_gen (mv_ell g e) (mv_pt g p)) with (ell_gen e p); [reflexivity|].
  unfold ell_gen. change (e_d (mv_ell g e)) with (mv_pt g (e_d e)). rewrite mv_pt_sub.
  set (v := vsub p (e_d e)). clearbody v. pose proof (cs2 (rm_phi g)) as H.
  apply vec2_ext; simpl.
  - transitivity ((cos (rm_phi g) * cos (rm_phi g) + sin (rm_phi g) * sin (rm_phi g)) * (m00 (e_Ci e) * vx v + m01 (e_Ci e) * vy v)); [rewrite H|]; ring.
  - transitivity ((cos (rm_phi g) * cos (rm_phi g) + sin (rm_phi g) * sin (rm_phi g)) * (m10 (e_Ci e) * vx v + m11 (e_Ci e) * vy v)); [rewrite H|]; ring.
Qed.

Lemma feasible_invariant : forall g p rPl da dt pos rel,
  prob_feasible (mv_prob g p) (cand_of rPl da dt (mv_pt g pos) rel) = prob_feasible p (cand_of rPl da dt pos rel).
Proof.
  intros; unfold prob_feasible, maxLength_ok, minWidth_ok, maxAngle_ok, inEllipse_ok, maxBack_ok; cbn -[ell_inside mv_ell mv_pt].
  rewrite inside_invariant; reflexivity.
Qed.

Lemma cost_invariant : forall g p rPl da dt pos rel,
  prob_cost (mv_prob g p) (cand_of rPl da dt (mv_pt g pos) rel) = prob_cost p (cand_of rPl da dt pos rel).
Proof. reflexivity. Qed.

Lemma turn_invariant : forall g f s u,
  ft_angleFromStep (mv_foot g f) (mv_step g s) - u_angle (mv_state g u) = ft_angleFromStep f s - u_angle u.
Proof. intros; unfold ft_angleFromStep; simpl; ring. Qed.

(** C06 *)
Lemma ub_ok_true : forall b v, ub_ok b v = true <-> (forall m, b = Some m -> v < m).
Proof.
  intros [m|] v; simpl; split; intros H; try (intros; congruence); auto.
  - intros m' [= <-]. apply Rltb_true; auto.
  - apply Rltb_true; auto.
Qed.
Lemma lb_ok_true : forall b v, lb_ok b v = true <-> (forall m, b = Some m -> m < v).
Proof.
  intros [m|] v; simpl; split; intros H; try (intros; congruence); auto.
  - intros m' [= <-]. apply Rltb_true; auto.
  - apply Rltb_true; auto.
Qed.

Lemma norm_rotT_dist : forall a p q, sqrt (vx (rotT a (vsub p q)) * vx (rotT a (vsub p q)) + vy (rotT a (vsub p q)) * vy (rotT a (vsub p q))) = dist2d p q.
Proof.
  intros. unfold dist2d. f_equal. pose proof (vnorm2_rotT a (vsub p q)) as H. unfold vnorm2 in H.
  rewrite H. simpl. ring.
Qed.
Lemma dist2d_sym : forall p q, dist2d p q = dist2d q p.
Proof. intros; unfold dist2d; f_equal; ring. Qed.

Lemma feasible_admissible : forall p (sw : bool) l r u prev da dt rPl rel pos,
  (if sw then ft_getLast r else ft_getLast l) = Some prev ->
  get_rPl sw l r u = Some rPl -> get_rel sw l r u = Some rel ->
  ft_posFromUnicycle (if sw : bool then l else r) u = Some pos ->
  (prob_feasible p (cand_of rPl da dt pos rel) = true <-> admissible p sw prev pos (u_angle u) da).
Proof.
  intros p sw l r u prev da dt rPl rel pos Hprev HrPl Hrel Hpos.
  assert (Hrel' : rel = rotT (st_angle prev) (vsub pos (st_pos prev))).
  { unfold get_rel in Hrel. destruct sw; rewrite Hprev, Hpos in Hrel; congruence. }
  assert (HrPl' : rPl = if sw then rotT (st_angle prev) (vsub pos (st_pos prev)) else rotT (u_angle u) (vsub (st_pos prev) pos)).
  { unfold get_rPl in HrPl. destruct sw; rewrite Hprev, Hpos in HrPl; congruence. }
  clear HrPl Hrel Hpos Hprev.
  unfold prob_feasible, admissible. rewrite !andb_true_iff.
  unfold maxLength_ok, minWidth_ok, maxAngle_ok, inEllipse_ok, maxBack_ok; cbn [c_rPl c_dAngle c_pos c_rel cand_of].
  rewrite !ub_ok_true, lb_ok_true.
  assert (E1 : sqrt (vx rPl * vx rPl + vy rPl * vy rPl) = dist2d pos (st_pos prev)).
  { subst rPl; destruct sw; rewrite norm_rotT_dist; [reflexivity|apply dist2d_sym]. }
  assert (E2 : vy rPl = if sw then vdot (vsub pos (st_pos prev)) (leftward (st_angle prev)) else vdot (vsub (st_pos prev) pos) (leftward (u_angle u))).
  { subst rPl; destruct sw; unfold vdot; simpl; ring. }
  assert (E3 : vx rel = vdot (vsub pos (st_pos prev)) (heading (st_angle prev))).
  { subst rel; unfold vdot; simpl; ring. }
  assert (E4 : sqrt (vx rel * vx rel + vy rel * vy rel) = dist2d pos (st_pos prev)).
  { subst rel; apply norm_rotT_dist. }
  rewrite E4, E1, E2, E3.
  assert (E5 : Rleb (1 / 2) (if ell_inside (p_ell p) pos then 1 else 0) = true <-> ell_inside (p_ell p) pos = true).
  { destruct (ell_inside (p_ell p) pos); rewrite Rleb_true; split; intros; try lra; try congruence; auto. }
  rewrite E5.
  assert (E6 : (forall m, p_maxBack p = Some m ->
      (if Rltb (vdot (vsub pos (st_pos prev)) (heading (st_angle prev))) 0 then dist2d pos (st_pos prev) else 0) < m)
     <-> (forall b, p_maxBack p = Some b -> 0 < b /\
        (vdot (vsub pos (st_pos prev)) (heading (st_angle prev)) < 0 -> dist2d pos (st_pos prev) < b))).
  { assert (0 <= dist2d pos (st_pos prev)) by apply sqrt_pos.
    destruct (Rltb _ 0) eqn:E; [apply Rltb_true in E|apply Rltb_false in E]; split; intros Hm b Hb; specialize (Hm b Hb).
    - split; intros; lra.
    - tauto.
    - split; intros; lra.
    - tauto. }
  rewrite E6. tauto.
Qed.

Lemma prob_run_bounds : forall ops p,
  p_maxLen (fold_left prob_run ops p) = match latest selLen (rev ops) with Some v => Some v | None => p_maxLen p end
  /\ p_maxBack (fold_left prob_run ops p) = match latest selBack (rev ops) with Some v => Some v | None => p_maxBack p end
  /\ p_minWidth (fold_left prob_run ops p) = match latest selWidth (rev ops) with Some v => Some v | None => p_minWidth p end
  /\ p_maxAngle (fold_left prob_run ops p) = match latest selAngle (rev ops) with Some v => Some v | None => p_maxAngle p end.
Proof.
  intros ops; induction ops as [|o ops IH] using rev_ind; intros p; [simpl; auto|].
  rewrite fold_left_app, rev_app_distr; simpl. destruct (IH p) as (H1 & H2 & H3 & H4).
  set (q := fold_left prob_run ops p) in *.
  destruct o; simpl; unfold prob_setMaxLen, prob_setMaxBack, prob_setMinWidth, prob_setMaxAngle, prob_setWeights, prob_setPosW, prob_setTimeW, Rltb;
    repeat (destruct (Rlt_dec _ _); simpl); repeat (destruct (Rle_dec _ _); simpl); try lra; auto.
Qed.

Lemma prob_history_bounds : forall ops,
  p_maxLen (fold_left prob_run ops prob_new) = latest selLen (rev ops)
  /\ p_maxBack (fold_left prob_run ops prob_new) = latest selBack (rev ops)
  /\ p_minWidth (fold_left prob_run ops prob_new) = latest selWidth (rev ops)
  /\ p_maxAngle (fold_left prob_run ops prob_new) = latest selAngle (rev ops).
Proof.
  intros ops. destruct (prob_run_bounds ops prob_new) as (H1 & H2 & H3 & H4). rewrite H1, H2, H3, H4. simpl.
  repeat split; match goal with |- match ?x with _ => _ end = _ => destruct x; reflexivity end.
Qed.
