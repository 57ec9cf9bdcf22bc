(** Properties C11 to C16: person-following controller. *)
From Coq Require Import Reals Lra Lia Psatz List Bool Permutation Sorted.
From Verif Require Import Prelude EvalTac UnicycleFoot Ellipse FootSpec EllipseSpec EllipseProofs Controllers ControlSpec ControlProofs
  PersonFollowing PersonSpec PersonProofs Properties_Ellipse.
Import ListNotations.
Open Scope R_scope.

(** A sorting function, to show that the assumption on std::sort can be met. *)
Fixpoint insert_tp (p : tpoint) (l : list tpoint) : list tpoint :=
  match l with [] => [p] | q :: r => if Rle_dec (t_time p) (t_time q) then p :: l else q :: insert_tp p r end.
Definition isort (l : list tpoint) : list tpoint := fold_right insert_tp [] l.
Lemma insert_perm : forall p l, Permutation (p :: l) (insert_tp p l).
Proof.
  intros p l. induction l as [|q l IH]; cbn; [auto|]. destruct (Rle_dec _ _); [auto|].
  eapply perm_trans; [apply perm_swap|]. constructor. exact IH.
Qed.
Lemma insert_sorted : forall p l, in_time_order l -> in_time_order (insert_tp p l).
Proof.
  intros p l H. unfold in_time_order in *. induction H as [|q l Hs IH Hf]; cbn; [repeat constructor|]. destruct (Rle_dec _ _) as [L|L].
  - constructor; [constructor; auto|]. constructor; [auto|]. eapply Forall_impl; [|exact Hf]. cbn; intros; lra.
  - constructor; [exact IH|]. apply (Permutation_Forall (insert_perm p l)). constructor; [lra|auto].
Qed.
Lemma isort_sorting : sorting isort.
Proof.
  intros l. induction l as [|p l [P S1]]; cbn; [split; [auto|constructor]|]. split.
  - eapply perm_trans; [apply perm_skip, P|apply insert_perm].
  - apply insert_sorted; auto.
Qed.

(** * C11 *)
(** After any sequence of setDesiredPoint calls: ordered, nothing lost, nothing invented. *)
Theorem C11_insertions : forall f ps, sorting f ->
  let l := k_traj (pf_history f (map PfPoint ps)) in
  in_time_order l /\ Permutation (MkTP 0 vzero vzero :: accepted_points ps) l.
Proof.
  intros f ps Hf l. split; [apply history_sorted; auto|].
  enough (G : forall k l0, Permutation l0 (k_traj k) -> Permutation (l0 ++ accepted_points ps) (k_traj (fold_left (pf_run f) (map PfPoint ps) k))).
  { apply (G pf_new [MkTP 0 vzero vzero]). apply Permutation_refl. }
  clear l. induction ps as [|p ps IH]; intros k l0 H; cbn [map fold_left accepted_points filter].
  - cbn. rewrite app_nil_r. exact H.
  - unfold accepted_points in *. cbn. unfold pf_run at 2, pf_call, pf_setPoint. destruct (Rle_dec 0 (t_time p)) as [L|L].
    + rewrite rltb_f by lra. cbn [fst]. change (p :: filter ?g ps) with ([p] ++ filter g ps). rewrite app_assoc. apply IH. cbn.
      eapply perm_trans; [|apply Hf]. apply Permutation_app_tail. exact H.
    + rewrite rltb_t by lra. apply IH. exact H.
Qed.
Print Assumptions C11_insertions.

(** A point is accepted exactly when its start time is not negative; a refused one changes nothing. *)
Theorem C11_refused : forall f k p, (snd (pf_call f k (PfPoint p)) = true <-> 0 <= t_time p)
  /\ (snd (pf_call f k (PfPoint p)) = false -> fst (pf_call f k (PfPoint p)) = k).
Proof.
  intros f k p. cbn. unfold pf_setPoint. destruct (Rltb (t_time p) 0) eqn:E; cbn.
  - apply Rltb_true in E. split; [split; [discriminate|lra]|auto].
  - apply Rltb_false in E. split; [tauto|discriminate].
Qed.
Print Assumptions C11_refused.

(** The order also survives every other call, in any interleaving. *)
Theorem C11_order_always : forall f ops, sorting f -> in_time_order (k_traj (pf_history f ops)).
Proof. intros. apply history_sorted; auto. Qed.
Print Assumptions C11_order_always.

Definition c11_pts : list tpoint := [MkTP 2 (V2 4 0) vzero; MkTP (-1) (V2 9 9) vzero; MkTP 1 (V2 1 1) vzero].
Example c11_case : k_traj (pf_history isort (map PfPoint c11_pts)) = [MkTP 0 vzero vzero; MkTP 1 (V2 1 1) vzero; MkTP 2 (V2 4 0) vzero].
Proof.
  unfold pf_history, c11_pts, pf_run, pf_call, pf_setPoint, pf_new. cbn [map fold_left t_time fst].
  rewrite rltb_f by lra. cbn [fst]. rewrite rltb_t by lra. cbn [fst]. rewrite rltb_f by lra. cbn.
  repeat (destruct (Rle_dec _ _); cbn; try lra). reflexivity.
Qed.

(** * C12 *)
Theorem C12_fails_iff : forall l t, in_time_order l ->
  (pf_desired l t = None <-> t < 0 \/ l = [] \/ exists f r, l = f :: r /\ t < t_time f).
Proof.
  intros l t Hs. split.
  - intros H. destruct (Rlt_dec t 0) as [L|L]; [auto|]. right. destruct l as [|f r]; [auto|]. right. exists f, r. split; [reflexivity|].
    apply Rnot_le_lt. intros N. destruct (desired_some (f :: r) t Hs) as (p & n & Hn); [lra|eauto|].
    rewrite (desired_from _ _ _ _ Hs (Rnot_lt_le _ _ L) Hn) in H. discriminate.
  - intros [H|[->|(f & r & -> & H)]]; unfold pf_desired.
    + rewrite rltb_t by auto. reflexivity.
    + destruct (Rltb t 0); reflexivity.
    + destruct (Rltb t 0); [reflexivity|]. rewrite rltb_t by auto. reflexivity.
Qed.
Print Assumptions C12_fails_iff.

(** At or after the last point its value is returned. *)
Theorem C12_after_last : forall l t p, in_time_order l -> 0 <= t -> neighbours l t p None ->
  pf_desired l t = Some (t_y p, t_yd p).
Proof. intros l t p Hs Ht Hn. apply (desired_from _ _ _ _ Hs Ht Hn). Qed.
Print Assumptions C12_after_last.

(** Between two points: the straight line from one to the other, at the fraction of time elapsed, which is in [0, 1). *)
Theorem C12_between : forall l t p n, in_time_order l -> 0 <= t -> neighbours l t p (Some n) ->
  0 <= fraction t p n < 1
  /\ pf_desired l t = Some (line_at (t_y p) (t_y n) (fraction t p n), line_at (t_yd p) (t_yd n) (fraction t p n)).
Proof.
  intros l t p n Hs Ht Hn. destruct (neighbours_later _ _ _ _ Hn) as [A B]. split.
  - unfold fraction. assert (0 < / (t_time n - t_time p)) by (apply Rinv_0_lt_compat; lra). split; [apply Rmult_le_pos; lra|].
    apply (Rmult_lt_reg_r (t_time n - t_time p)); [lra|]. unfold Rdiv. rewrite Rmult_assoc, Rinv_l by lra. lra.
  - rewrite (desired_from _ _ _ _ Hs Ht Hn). cbn. unfold interp, line_at, fraction, vadd, vscale; cbn.
    f_equal. f_equal; apply vec2_ext; cbn; field; lra.
Qed.
Print Assumptions C12_between.

(** At a stored start time, when start times are distinct, the stored value is returned. *)
Theorem C12_at_stored : forall l1 p l2, in_time_order (l1 ++ p :: l2) -> NoDup (map t_time (l1 ++ p :: l2)) -> 0 <= t_time p ->
  pf_desired (l1 ++ p :: l2) (t_time p) = Some (t_y p, t_yd p).
Proof.
  intros l1 p l2 Hs Hd Ht. destruct (sorted_app _ _ Hs) as (_ & S2 & _). inversion S2 as [|? ? _ HF]; subst.
  assert (Hl : Forall (fun q => t_time p < t_time q) l2).
  { rewrite map_app in Hd. cbn in Hd. apply NoDup_remove_2 in Hd. rewrite Forall_forall in *. intros q Hq. specialize (HF q Hq).
    destruct (Req_dec (t_time p) (t_time q)) as [E|E]; [|lra]. exfalso. apply Hd. rewrite E. apply in_or_app. right. apply in_map; auto. }
  assert (Hn : neighbours (l1 ++ p :: l2) (t_time p) p (hd_error l2)).
  { exists l1, l2. split; [reflexivity|]. split; [lra|auto]. }
  destruct l2 as [|n l2]; [apply C12_after_last; auto|].
  destruct (C12_between _ _ _ _ Hs Ht Hn) as [_ ->]. inversion Hl; subst. unfold fraction.
  replace ((t_time p - t_time p) / (t_time n - t_time p)) with 0 by (field; lra). rewrite !line_0. reflexivity.
Qed.
Print Assumptions C12_at_stored.

(** Neighbours exist and are unique whenever the lookup does not fail, so the three theorems cover every query. *)
Theorem C12_covers : forall l t, in_time_order l -> pf_desired l t <> None ->
  exists p n, neighbours l t p n /\ forall p' n', neighbours l t p' n' -> p' = p /\ n' = n.
Proof.
  intros l t Hs H. destruct (pf_desired l t) as [v|] eqn:E; [|congruence]. destruct (desired_value _ _ _ E) as (p & n & Hn & _).
  exists p, n. split; [exact Hn|]. intros p' n' H'. destruct (neighbours_unique _ _ _ _ _ _ Hn H'); auto.
Qed.
Print Assumptions C12_covers.

Definition c12_l : list tpoint := [MkTP 0 vzero vzero; MkTP 1 (V2 1 1) vzero; MkTP 2 (V2 4 0) vzero].
Example c12_case : in_time_order c12_l /\ neighbours c12_l (3/2) (MkTP 1 (V2 1 1) vzero) (Some (MkTP 2 (V2 4 0) vzero))
  /\ neighbours c12_l 5 (MkTP 2 (V2 4 0) vzero) None.
Proof.
  split; [|split].
  - unfold in_time_order, c12_l. repeat first [apply SSorted_cons | apply SSorted_nil | apply Forall_cons | apply Forall_nil]; cbn; lra.
  - exists [MkTP 0 vzero vzero], [MkTP 2 (V2 4 0) vzero]. split; [reflexivity|]. split; [cbn; lra|]. split; [|reflexivity]. constructor; [cbn; lra|constructor].
  - exists [MkTP 0 vzero vzero; MkTP 1 (V2 1 1) vzero], []. split; [reflexivity|]. split; [cbn; lra|]. split; [constructor|reflexivity].
Qed.

(** * C13 *)
Theorem C13_future_kept : forall f ops T k', sorting f -> pf_clearUpTo T (pf_history f ops) = (k', true) ->
  (forall t, T <= t -> pf_desired (k_traj k') t = pf_desired (k_traj (pf_history f ops)) t)
  /\ (forall t, t < T -> pf_desired (k_traj k') t = None).
Proof.
  intros f ops T k' Hf H. pose proof (history_sorted f ops Hf) as Hs. revert Hs H. generalize (pf_history f ops). intros k Hs H.
  pose proof (clearUpTo_sorted T k Hs) as Hs'. rewrite H in Hs'. cbn [fst] in Hs'.
  unfold pf_clearUpTo in H. destruct (Rltb T 0) eqn:E0; [discriminate|]. apply Rltb_false in E0.
  destruct (k_traj k) as [|p0 l0] eqn:El.
  - injection H as <-. rewrite El. split; [auto|]. intros t _. unfold pf_desired. destruct (Rltb t 0); reflexivity.
  - rewrite <- El in *. destruct (pf_desired (k_traj k) T) as [[y yd]|] eqn:E; [|discriminate]. injection H as <-. cbn [pf_with_traj k_traj] in *.
    apply desired_value in E. destruct E as (p & n & Hn & Ev). pose proof Hn as (a & b & Ea & Hp & Hb & En).
    rewrite Ea in *. rewrite drop_le_split in * by auto. split.
    + intros t Ht. assert (Ht0 : 0 <= t) by lra.
      destruct (desired_some (MkTP T y yd :: b) t Hs') as (q & m & Hq); [lra|eexists; eexists; split; [reflexivity|exact Ht]|].
      rewrite (desired_from _ _ _ _ Hs' Ht0 Hq). symmetry.
      destruct Hq as (c & d & Ec & Hqt & Hd & Em). destruct c as [|x c]; cbn in Ec.
      * (* still before the next stored point *)
        injection Ec as <- <-.
        assert (Hold : neighbours (a ++ p :: b) t p m). { exists a, b. split; [reflexivity|]. split; [lra|]. split; auto. }
        rewrite (desired_from _ _ _ _ Hs Ht0 Hold). f_equal. subst m n. destruct b as [|n b]; cbn in *.
        -- injection Ev as -> ->. reflexivity.
        -- inversion Hd; subst. pose proof (interp_refine T t p n Hp Ht) as K. rewrite <- Ev in K. symmetry. apply K. auto.
      * injection Ec as <- Eb.
        assert (Hold : neighbours (a ++ p :: b) t q m). { exists (a ++ p :: c), d. split; [rewrite Eb, <- app_assoc; reflexivity|]. split; auto. }
        apply (desired_from _ _ _ _ Hs Ht0 Hold).
    + intros t Ht. apply C12_fails_iff; auto. right; right. eexists; eexists. split; [reflexivity|]. exact Ht.
Qed.
Print Assumptions C13_future_kept.

(** The call succeeds exactly when T is not negative and the reference is empty or has started. *)
Theorem C13_succeeds_iff : forall f ops T, sorting f ->
  let k := pf_history f ops in
  (snd (pf_clearUpTo T k) = true <-> 0 <= T /\ (k_traj k = [] \/ exists p r, k_traj k = p :: r /\ t_time p <= T))
  /\ (snd (pf_clearUpTo T k) = false -> fst (pf_clearUpTo T k) = k).
Proof.
  intros f ops T Hf k. pose proof (history_sorted f ops Hf) as Hs. fold k in Hs. clearbody k.
  unfold pf_clearUpTo. destruct (Rltb T 0) eqn:E0.
  - apply Rltb_true in E0. cbn. split; [split; [discriminate|lra]|auto].
  - apply Rltb_false in E0. destruct (k_traj k) as [|p l] eqn:El; [cbn; split; [split; [intros _; split; [auto|left; reflexivity]|auto]|discriminate]|].
    destruct (pf_desired (p :: l) T) as [[y yd]|] eqn:E; cbn.
    + split; [split; [|auto]|discriminate]. intros _. split; [auto|]. right. exists p, l. split; [reflexivity|].
      apply Rnot_lt_le. intros N. assert (X : pf_desired (p :: l) T = None) by (apply C12_fails_iff; [exact Hs|]; right; right; exists p, l; auto). congruence.
    + split; [split; [discriminate|]|auto]. intros (_ & [C|(q & r & C & D)]); [discriminate|]. injection C as <- <-.
      apply C12_fails_iff in E; auto. destruct E as [E|[E|(g & h & E & G)]]; [lra|discriminate|]. injection E as <- <-. lra.
Qed.
Print Assumptions C13_succeeds_iff.

Example c13_case : exists k', pf_clearUpTo (3/2) (pf_history isort (map PfPoint c11_pts)) = (k', true).
Proof.
  destruct (C13_succeeds_iff isort (map PfPoint c11_pts) (3/2) isort_sorting) as [[_ H] _].
  cbv zeta in H. rewrite c11_case in H.
  destruct (pf_clearUpTo (3/2) (pf_history isort (map PfPoint c11_pts))) as [k' b]. exists k'. f_equal. apply H.
  split; [lra|]. right. eexists; eexists. split; [reflexivity|]. cbn. lra.
Qed.

(** * C14 *)
(** The velocity the command gives to the tracked point is the desired one minus gain times error. *)
Theorem C14_velocity : forall f ops g t u k' c y yd (px py th : R -> R) z,
  pf_ctl g (pf_history f ops) t u = Some (k', c) ->
  pf_desired_free g k' t (u_pos u) (u_angle u) = Some (y, yd) ->
  (* any motion through [u] at time [z] with the velocity of the unicycle under [c] *)
  V2 (px z) (py z) = u_pos u -> th z = u_angle u ->
  derivable_pt_lim px z (vx (fst (unicycle_dot u c))) -> derivable_pt_lim py z (vy (fst (unicycle_dot u c))) ->
  derivable_pt_lim th z (snd (unicycle_dot u c)) ->
  let d := k_dist (pf_history f ops) in
  let gain := k_gain (pf_history f ops) in
  let person := fun s => vadd (V2 (px s) (py s)) (rot (th s) d) in
  0 < gain
  /\ derivable_pt_lim (fun s => vx (person s)) z (vx yd - gain * (vx (person z) - vx y))
  /\ derivable_pt_lim (fun s => vy (person s)) z (vy yd - gain * (vy (person z) - vy y)).
Proof.
  intros f ops g t u k' c y yd px py th z H HD Hp Hth Dx Dy Dt d gain person.
  destruct (history_dist f ops) as [Hd Hg]. fold d in Hd. split; [exact Hg|].
  unfold pf_ctl in H. cbv zeta in H. destruct (pf_raw g _) as [c'|] eqn:HR; [|discriminate]. injection H as <- <-.
  pose proof (law_velocity g (pf_feedback t (u_pos u) (u_angle u) (pf_history f ops)) c' y yd Hd HD HR) as L. cbn [pf_feedback k_upos k_theta k_dist k_gain k_meas] in L.
  destruct u as [up ua]; cbn [u_pos u_angle] in *. unfold unicycle_dot in *. cbn [fst snd u_angle] in *.
  destruct (attached_derivative px py th z d _ _ Dx Dy Dt) as [A B]. rewrite Hth in A, B. fold d in L. cbn [u_angle u_pos] in L. rewrite L in A, B.
  assert (EP : person z = pf_person (pf_history f ops) up ua) by (unfold person; rewrite Hp, Hth; reflexivity).
  rewrite EP. split; [exact A|exact B].
Qed.
Print Assumptions C14_velocity.

(** Along a motion driven by the unsaturated controller, with a reference whose derivative is the desired velocity,
    the tracking error decays exponentially. *)
Theorem C14_error_decays : forall f ops g b (px py th yx yy : R -> R) (c : R -> cmd) (yd : R -> vec2),
  let k := pf_history f ops in
  let u := fun t => MkU (V2 (px t) (py t)) (th t) in
  let person := fun t => vadd (V2 (px t) (py t)) (rot (th t) (k_dist k)) in
  (forall t, 0 <= t ->
     exists k', pf_ctl g k t (u t) = Some (k', c t)
       /\ pf_desired_free g k' t (u_pos (u t)) (u_angle (u t)) = Some (V2 (yx t) (yy t), yd t)
       /\ base_sat b (c t) = c t
       /\ derivable_pt_lim yx t (vx (yd t)) /\ derivable_pt_lim yy t (vy (yd t))
       /\ derivable_pt_lim px t (vx (fst (unicycle_dot (u t) (base_sat b (c t)))))
       /\ derivable_pt_lim py t (vy (fst (unicycle_dot (u t) (base_sat b (c t)))))
       /\ derivable_pt_lim th t (snd (unicycle_dot (u t) (base_sat b (c t))))) ->
  forall t, 0 <= t ->
    vsub (person t) (V2 (yx t) (yy t)) = vscale (exp (- (k_gain k * t))) (vsub (person 0) (V2 (yx 0) (yy 0))).
Proof.
  intros f ops g b px py th yx yy c yd k u person H.
  assert (D : forall t, 0 <= t ->
    derivable_pt_lim (fun s => vx (person s) - yx s) t (- k_gain k * (vx (person t) - yx t))
    /\ derivable_pt_lim (fun s => vy (person s) - yy s) t (- k_gain k * (vy (person t) - yy t))).
  { intros t Ht. destruct (H t Ht) as (k' & E & HD & Hsat & Dyx & Dyy & Dx & Dy & Dt). rewrite Hsat in *.
    destruct (C14_velocity f ops g t (u t) k' (c t) (V2 (yx t) (yy t)) (yd t) px py th t E HD eq_refl eq_refl Dx Dy Dt) as (_ & A & B).
    fold k in A, B. cbn [vx vy] in A, B. split.
    - replace (- k_gain k * (vx (person t) - yx t)) with ((vx (yd t) - k_gain k * (vx (person t) - yx t)) - vx (yd t)) by ring.
      apply (derivable_pt_lim_minus (fun s => vx (person s)) yx); auto.
    - replace (- k_gain k * (vy (person t) - yy t)) with ((vy (yd t) - k_gain k * (vy (person t) - yy t)) - vy (yd t)) by ring.
      apply (derivable_pt_lim_minus (fun s => vy (person s)) yy); auto. }
  intros t Ht.
  pose proof (exp_decay (fun s => vx (person s) - yx s) (k_gain k) (fun s Hs => proj1 (D s Hs)) t Ht) as EX.
  pose proof (exp_decay (fun s => vy (person s) - yy s) (k_gain k) (fun s Hs => proj2 (D s Hs)) t Ht) as EY.
  cbv beta in EX, EY. apply vec2_ext; unfold vsub, vscale; cbn [vx vy]; lra.
Qed.
Print Assumptions C14_error_decays.

(** A fresh controller at the origin heading along x: the command is computed and the reference is the origin. *)
Example c14_case : exists k' c, pf_ctl 0 (pf_history isort []) 1 (MkU (V2 0 0) 0) = Some (k', c) /\ c_fwd c = -2 /\ c_ang c = 0
  /\ pf_desired_free 0 k' 1 (V2 0 0) 0 = Some (vzero, vzero).
Proof.
  assert (F : pf_desired_free 0 (pf_feedback 1 (V2 0 0) 0 (pf_history isort [])) 1 (V2 0 0) 0 = Some (vzero, vzero)).
  { unfold pf_desired_free, pf_desired, pf_blend. cbn. rewrite !rltb_f by lra. rewrite rleb_t by lra. rewrite Rmult_0_r.
    unfold tanh. rewrite sinh_0. unfold vzero, vadd, vscale; cbn. f_equal. f_equal. apply vec2_ext; cbn; unfold Rdiv; ring. }
  unfold pf_ctl. cbv zeta. unfold pf_raw. cbn [u_pos u_angle] in *.
  cbn [pf_feedback k_time k_upos k_theta k_dist k_gain k_meas] in *. rewrite F. 
  do 2 eexists. split; [reflexivity|]. cbn. unfold pf_person, vadd, rot; cbn. rewrite sin_0, cos_0. split; [lra|]. split; [lra|]. exact F.
Qed.

(** * C15 *)
(** After any history whose ellipses come from semi-axes (or are unset), the tracked point lies in the ellipse last
    handed over.  Full statement: for every accepted ellipse.  Missing (and false): ellipses from sheared image matrices. *)
Theorem C15_reference_in_free_space_partial : forall f ops g t pos ang y yd, proper_ops ops ->
  pf_desired_free g (pf_history f ops) t pos ang = Some (y, yd) -> ell_inside (last_ell ops) y = true.
Proof.
  intros f ops g t pos ang y yd Hp H. destruct (history_safe f ops Hp) as [S1 <-]. eapply tracked_inside; eauto.
Qed.
Print Assumptions C15_reference_in_free_space_partial.

(** A reference already inside the inner ellipse is not touched, and no ellipse means no change. *)
Theorem C15_untouched : forall f ops g t pos ang y yd, 
  pf_desired (k_traj (pf_history f ops)) t = Some (y, yd) ->
  let k := pf_history f ops in
  (e_set (k_inner k) = true /\ ell_inside (k_inner k) y = true) \/ (e_set (k_outer k) = false /\ e_set (k_inner k) = false) ->
  pf_desired_free g k t pos ang = Some (y, yd).
Proof.
  intros f ops g t pos ang y yd H k D. unfold pf_desired_free. fold k in H. rewrite H. destruct D as [[A B]|[A B]].
  - rewrite A, B. reflexivity.
  - rewrite A, B. cbn [andb]. f_equal. f_equal. apply vec2_ext; cbn; ring.
Qed.
Print Assumptions C15_untouched.

(** The sheared matrix of C62, with an inner offset of 1/2, lets the reference leave the ellipse: the point (0, 2/5) is
    outside the set described by the matrix but inside the disc used as inner ellipse. *)
Theorem C15_sheared_refuted : exists e ops y yd, ell_setM (M2 1 10 0 1) (V2 0 0) ell_clear = (e, true) /\
  ops = [PfOff (1/2) (1/2); PfEll e; PfPoint (MkTP 1 (V2 0 (2/5)) vzero)] /\
  snd (pf_call isort (pf_history isort [PfOff (1/2) (1/2)]) (PfEll e)) = true /\
  pf_desired_free 0 (pf_history isort ops) 1 (V2 0 0) 0 = Some (y, yd) /\ ell_inside e y = false.
Proof.
  destruct C62_sheared_refuted as (e & e'' & p & E & _).
  assert (Ea : atan2 0 1 = 0). { unfold atan2. destruct (Rlt_dec 0 1); [|lra]. unfold Rdiv. rewrite Rmult_0_l. apply atan_0. }
  pose proof em10_le_1 as H1. pose proof em10_pos as H0.
  assert (E' : ell_setM (M2 1 10 0 1) (V2 0 0) ell_clear = (MkEll (M2 1 10 0 1) (minv (M2 1 10 0 1)) (V2 0 0) 1 1 0 true, true)).
  { unfold ell_setM, mdet. cbn [m00 m01 m10 m11]. cbv zeta. rewrite Ea, sin_0, cos_0.
    rewrite rltb_f by lra. rewrite Rabs_R0, Rabs_R1, rgtb_f by lra. rewrite rgtb_f.
    - repeat f_equal; field.
    - replace (1 * 1 - 10 * 0 - 1 / 1 * (1 / 1)) with 0 by field. rewrite Rabs_R0. lra. }
  rewrite E in E'. injection E' as Ee.
  assert (Hhalf : em10 <= 1/2). { unfold em10. replace (1/2) with (/ 2) by field. apply Rinv_le_contravar; lra. }
  set (k1 := pf_history isort [PfOff (1/2) (1/2)]).
  assert (K1 : k1 = pf_with_ell ell_clear ell_clear (pf_with_off (1/2) (1/2) pf_new)).
  { unfold k1, pf_history, pf_run, pf_call, pf_setOff. cbn [fold_left]. rewrite !rltb_f by lra. reflexivity. }
  destruct (C17_setter (1/2) (1/2) 0 0 0 e) as [T _]. destruct (T (conj Hhalf Hhalf)) as (i & Ei & _).
  assert (K2 : pf_call isort k1 (PfEll e) = (pf_with_ell e i k1, true)).
  { assert (F : e_set e = true /\ e_a e = 1 /\ e_b e = 1 /\ e_th e = 0 /\ e_d e = V2 0 0) by (rewrite Ee; repeat split).
    destruct F as (F1 & F2 & F3 & F4 & F5). cbn [pf_call]. unfold pf_setEll. rewrite F1, F2, F3, F4, F5. cbv zeta iota.
    replace (k_offMaj k1) with (1/2) by (rewrite K1; reflexivity). replace (k_offMin k1) with (1/2) by (rewrite K1; reflexivity).
    rewrite !rleb_f by lra. cbn [orb vx vy]. replace (1 - 1/2) with (1/2) by lra. rewrite Ei. reflexivity. }
  exists e, [PfOff (1/2) (1/2); PfEll e; PfPoint (MkTP 1 (V2 0 (2/5)) vzero)], (V2 0 (2/5)), vzero.
  split; [exact E|]. split; [reflexivity|]. split; [rewrite K2; reflexivity|].
  set (k3 := pf_history isort _).
  assert (K3 : k3 = pf_with_traj (isort ([MkTP 0 vzero vzero] ++ [MkTP 1 (V2 0 (2/5)) vzero])) (pf_with_ell e i k1)).
  { unfold k3, pf_history. cbn [fold_left]. fold (pf_history isort [PfOff (1/2) (1/2)]). change (pf_run isort pf_new (PfOff (1/2) (1/2))) with k1.
    unfold pf_run at 2. rewrite K2. cbn [fst]. unfold pf_run, pf_call, pf_setPoint. cbn [t_time]. rewrite rltb_f by lra. cbn [fst].
    f_equal. rewrite K1. reflexivity. }
  pose proof (C17_membership (1/2) (1/2) 0 0 0 e i (V2 0 (2/5)) Ei) as [_ M].
  assert (Si : e_set i = true). { apply set5_is_ell in Ei. apply Ei. }
  split.
  - apply C15_untouched.
    + fold k3. rewrite K3. cbn [pf_with_traj k_traj].
      assert (ST : isort ([MkTP 0 vzero vzero] ++ [MkTP 1 (V2 0 (2/5)) vzero]) = [MkTP 0 vzero vzero] ++ [MkTP 1 (V2 0 (2/5)) vzero]).
      { cbn. destruct (Rle_dec 0 1); [reflexivity|lra]. }
      rewrite ST. refine (C12_at_stored [MkTP 0 vzero vzero] (MkTP 1 (V2 0 (2/5)) vzero) [] _ _ _); [| |cbn; lra].
      * unfold in_time_order. cbn. repeat first [apply SSorted_cons | apply SSorted_nil | apply Forall_cons | apply Forall_nil]; cbn; lra.
      * cbn. constructor; [|constructor; [intros []|constructor]]. intros [C|[]]. lra.
    + left. fold k3. rewrite K3. cbn [pf_with_traj pf_with_ell k_inner]. split; [exact Si|]. apply M.
      unfold level, axis_u, axis_v; cbn. rewrite cos_0, sin_0. lra.
  - apply not_true_is_false. intros C. unfold ell_inside in C. rewrite Ee in C. cbn [e_set negb] in C.
    apply Rleb_true in C. apply vnorm_le_1 in C. unfold ell_gen, minv, mdet, mapply, vsub in C; cbn in C. lra.
Qed.
Print Assumptions C15_sheared_refuted.

(** A history with two ellipses and an inner offset. *)
Example c15_case : exists e1 e2, ell_set5 1 1 0 0 0 ell_clear = (e1, true) /\ ell_set5 3 2 (PI / 4) 1 1 ell_clear = (e2, true) /\
  proper_ops [PfEll e1; PfOff (1/2) (1/4); PfCons 5; PfEll e2; PfPoint (MkTP 1 (V2 9 9) vzero)]
  /\ last_ell [PfEll e1; PfOff (1/2) (1/4); PfCons 5; PfEll e2; PfPoint (MkTP 1 (V2 9 9) vzero)] = e2.
Proof.
  pose proof em10_le_1.
  destruct (proj1 (C17_setter 1 1 0 0 0 ell_clear)) as (e1 & E1 & _); [lra|].
  destruct (proj1 (C17_setter 3 2 (PI / 4) 1 1 ell_clear)) as (e2 & E2 & _); [lra|].
  exists e1, e2. split; [exact E1|]. split; [exact E2|]. split; [|reflexivity].
  unfold proper_ops. apply Forall_cons; [right; eauto 8|]. apply Forall_cons; [exact I|]. apply Forall_cons; [exact I|].
  apply Forall_cons; [right; eauto 8|]. apply Forall_cons; [exact I|]. apply Forall_nil.
Qed.

(** * C16 *)
(** Exactly when an ellipse is refused. *)
Theorem C16_refused_iff : forall e k, proper e -> 0 <= k_offMaj k -> 0 <= k_offMin k ->
  (snd (pf_setEll e k) = false <-> e_set e = true /\ (e_a e - k_offMaj k < em10 \/ e_b e - k_offMin k < em10)).
Proof.
  intros e k Hp Ha Hb. unfold pf_setEll. cbv zeta. pose proof em10_pos as He. destruct (e_set e).
  - destruct (Rleb (e_a e - k_offMaj k) 0) eqn:Ea; destruct (Rleb (e_b e - k_offMin k) 0) eqn:Eb; cbn [orb];
      try (apply Rleb_true in Ea); try (apply Rleb_true in Eb); try (split; [intros _; split; [reflexivity|lra]|reflexivity]).
    destruct (set5_cases (e_a e - k_offMaj k) (e_b e - k_offMin k) (e_th e) (vx (e_d e)) (vy (e_d e)) e) as [[-> D]|(A & B & ->)]; cbn.
    + split; auto.
    + split; [discriminate|lra].
  - cbn. split; [discriminate|]. intros [C _]; discriminate.
Qed.
Print Assumptions C16_refused_iff.

(** Refused negative offsets leave everything as it was.  Full statement: every refused call does.  Missing (and false):
    ellipses too small for the offsets, and offsets too large for the ellipse. *)
Theorem C16_negative_offsets_partial : forall a b k, a < 0 \/ b < 0 -> pf_setOff a b k = (k, false).
Proof.
  intros a b k H. unfold pf_setOff. destruct (Rltb a 0) eqn:Ea; [reflexivity|]. apply Rltb_false in Ea. rewrite rltb_t by lra. reflexivity.
Qed.
Print Assumptions C16_negative_offsets_partial.

(** With a disc of radius 1 and offsets 1/2 in force, a disc of radius 1/4 is refused; yet the reference (2/5, 0), tracked
    exactly before, is afterwards confined to the refused disc. *)
Theorem C16_refused_ellipse_refuted : exists ops e, 
  let k := pf_history isort ops in
  let '(k', ok) := pf_setEll e k in
  ok = false /\ pf_desired_free 0 k 1 (V2 0 0) 0 = Some (V2 (2/5) 0, vzero)
  /\ (forall g yd, pf_desired_free g k' 1 (V2 0 0) 0 <> Some (V2 (2/5) 0, yd)).
Proof.
  pose proof em10_le_1 as H1. pose proof em10_pos as H0.
  assert (Hq : em10 <= 1/4). { unfold em10. replace (1/4) with (/ 4) by field. apply Rinv_le_contravar; lra. }
  destruct (proj1 (C17_setter 1 1 0 0 0 ell_clear)) as (e1 & E1 & A1 & B1 & T1 & D1 & S1); [lra|].
  destruct (proj1 (C17_setter (1/4) (1/4) 0 0 0 ell_clear)) as (e2 & E2 & A2 & B2 & T2 & D2 & S2); [lra|].
  destruct (proj1 (C17_setter (1/2) (1/2) 0 0 0 e1)) as (i & Ei & _ & _ & _ & _ & Si); [lra|].
  set (ops := [PfOff (1/2) (1/2); PfEll e1; PfPoint (MkTP 1 (V2 (2/5) 0) vzero)]).
  set (k1 := pf_with_ell ell_clear ell_clear (pf_with_off (1/2) (1/2) pf_new)).
  assert (K1 : pf_run isort pf_new (PfOff (1/2) (1/2)) = k1).
  { unfold pf_run, pf_call, pf_setOff. rewrite !rltb_f by lra. reflexivity. }
  assert (K2 : pf_run isort k1 (PfEll e1) = pf_with_ell e1 i k1).
  { unfold pf_run, pf_call, pf_setEll. rewrite S1, A1, B1, T1, D1. cbn [k1 pf_with_ell pf_with_off k_offMaj k_offMin].
    rewrite !rleb_f by lra. cbn [orb vx vy]. replace (1 - 1/2) with (1/2) by lra. rewrite Ei. reflexivity. }
  assert (ST : isort ([MkTP 0 vzero vzero] ++ [MkTP 1 (V2 (2/5) 0) vzero]) = [MkTP 0 vzero vzero] ++ [MkTP 1 (V2 (2/5) 0) vzero]).
  { cbn. destruct (Rle_dec 0 1); [reflexivity|lra]. }
  assert (K3 : pf_history isort ops = pf_with_traj ([MkTP 0 vzero vzero] ++ [MkTP 1 (V2 (2/5) 0) vzero]) (pf_with_ell e1 i k1)).
  { unfold pf_history, ops. cbn [fold_left]. rewrite K1, K2. unfold pf_run, pf_call, pf_setPoint. cbn [t_time]. rewrite rltb_f by lra. cbn [fst].
    rewrite <- ST. reflexivity. }
  exists ops, e2. cbv zeta. destruct (pf_setEll e2 (pf_history isort ops)) as [k' ok] eqn:EK. split; [|split].
  - assert (W : snd (pf_setEll e2 (pf_history isort ops)) = false).
    { apply C16_refused_iff; [right; eauto 8|rewrite K3; cbn; lra..|]. rewrite K3. cbn. split; [exact S2|]. left. rewrite A2. lra. }
    rewrite EK in W. exact W.
  - apply C15_untouched.
    + rewrite K3. cbn [pf_with_traj k_traj]. refine (C12_at_stored [MkTP 0 vzero vzero] (MkTP 1 (V2 (2/5) 0) vzero) [] _ _ _); [| |cbn; lra].
      * unfold in_time_order. cbn. repeat first [apply SSorted_cons | apply SSorted_nil | apply Forall_cons | apply Forall_nil]; cbn; lra.
      * cbn. constructor; [|constructor; [intros []|constructor]]. intros [C|[]]. lra.
    + left. rewrite K3. cbn [pf_with_traj pf_with_ell k_inner]. split; [exact Si|].
      apply (C17_membership (1/2) (1/2) 0 0 0 e1); auto. unfold level, axis_u, axis_v; cbn. rewrite cos_0, sin_0. lra.
  - intros g yd C.
    assert (HH : pf_history isort (ops ++ [PfEll e2]) = k').
    { unfold pf_history in *. rewrite fold_left_app. cbn [fold_left]. unfold pf_run at 1, pf_call. rewrite EK. reflexivity. }
    rewrite <- HH in C. apply C15_reference_in_free_space_partial in C.
    + cbn in C. apply (C17_membership (1/4) (1/4) 0 0 0 ell_clear) in C; auto. unfold level, axis_u, axis_v in C; cbn in C. rewrite cos_0, sin_0 in C. lra.
    + unfold proper_ops, ops. cbn. apply Forall_cons; [exact I|]. apply Forall_cons; [right; eauto 8|]. apply Forall_cons; [exact I|].
      apply Forall_cons; [right; eauto 8|]. apply Forall_nil.
Qed.
Print Assumptions C16_refused_ellipse_refuted.

(** * C07 for the controllers *)
(** Every refused call other than the two ellipse setters leaves the person-following controller as it was. *)
Theorem C07_person_following_partial : forall f k o, match o with PfEll _ | PfOff _ _ => False | _ => True end ->
  snd (pf_call f k o) = false -> fst (pf_call f k o) = k.
Proof.
  intros f k o Ho. destruct o; try contradiction; cbn [pf_call].
  - unfold pf_setDist. destruct (Reqb _ _); [auto|discriminate].
  - unfold pf_setGain. destruct (Rleb _ _); [auto|discriminate].
  - unfold pf_setPoint. destruct (Rltb _ _); [auto|discriminate].
  - discriminate.
  - unfold pf_clearUpTo. destruct (Rltb _ _); [auto|]. destruct (k_traj k); [auto|]. destruct (pf_desired _ _) as [[y yd]|]; [discriminate|auto].
  - unfold pf_setCons. destruct (Rltb _ _); [auto|discriminate].
  - discriminate.
Qed.
Print Assumptions C07_person_following_partial.

(** Refused speed limits leave the previous ones. *)
Theorem C07_base_controller : forall b o, snd (base_call b o) = false -> fst (base_call b o) = b.
Proof.
  intros b o. destruct o; cbn; unfold base_setSat, base_setTurn, base_setBack, base_setSide; [destruct (_ || _)|destruct (Rltb _ _)..]; cbn; auto; discriminate.
Qed.
Print Assumptions C07_base_controller.
