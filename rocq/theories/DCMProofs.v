(** Lemmas about DCM sub-trajectories. *)
From Coq Require Import String Reals Lra Lia ZArith List Bool.
From Coquelicot Require Import Coquelicot.
From Verif Require Import Prelude FootPrint GenPhases GenSpec ZMP ZMPSpec DCM DCMSpec.
Import ListNotations.
Open Scope R_scope.
Notation Forall := List.Forall.

(** ** Gluing curves *)
Lemma glue_derive : forall f g a d, derivable_pt_lim f a d -> derivable_pt_lim g a d -> f a = g a ->
  derivable_pt_lim (fun t => if Rleb t a then f t else g t) a d.
Proof.
  intros f g a d Hf Hg E eps He. destruct (Hf eps He) as [d1 H1]. destruct (Hg eps He) as [d2 H2].
  assert (P : 0 < Rmin d1 d2) by (apply Rmin_pos; apply cond_pos).
  exists (mkposreal _ P). intros h Hh Hl. cbn in Hl.
  assert (Rabs h < d1) by (eapply Rlt_le_trans; [exact Hl|apply Rmin_l]).
  assert (Rabs h < d2) by (eapply Rlt_le_trans; [exact Hl|apply Rmin_r]).
  rewrite (proj2 (Rleb_true a a)) by lra. destruct (Rleb (a + h) a); [auto|rewrite E; auto].
Qed.
Lemma glue_cont : forall f g a, continuity_pt f a -> continuity_pt g a -> f a = g a ->
  continuity_pt (fun t => if Rleb t a then f t else g t) a.
Proof.
  intros f g a Hf Hg E eps He. destruct (Hf eps He) as (d1 & P1 & H1). destruct (Hg eps He) as (d2 & P2 & H2).
  exists (Rmin d1 d2). split; [apply Rmin_pos; auto|]. intros x [D Hx].
  rewrite (proj2 (Rleb_true a a)) by lra. destruct (Rleb x a).
  - apply H1. split; auto. eapply Rlt_le_trans; [exact Hx|apply Rmin_l].
  - rewrite E. apply H2. split; auto. eapply Rlt_le_trans; [exact Hx|apply Rmin_r].
Qed.
Lemma left_derive : forall f g a t d, t < a -> derivable_pt_lim f t d -> derivable_pt_lim (fun t => if Rleb t a then f t else g t) t d.
Proof.
  intros f g a t d H D. apply is_derive_Reals. apply is_derive_Reals in D. eapply is_derive_ext_loc; [|exact D].
  eapply filter_imp; [|exact (open_lt a t H)]. intros u Hu. rewrite (proj2 (Rleb_true u a)) by lra. reflexivity.
Qed.
Lemma right_derive : forall f g a t d, a < t -> derivable_pt_lim g t d -> derivable_pt_lim (fun t => if Rleb t a then f t else g t) t d.
Proof.
  intros f g a t d H D. apply is_derive_Reals. apply is_derive_Reals in D. eapply is_derive_ext_loc; [|exact D].
  eapply filter_imp; [|exact (open_gt a t H)]. intros u Hu. rewrite (proj2 (Rleb_false u a)) by lra. reflexivity.
Qed.
Lemma left_cont : forall f g a t, t < a -> continuity_pt f t -> continuity_pt (fun t => if Rleb t a then f t else g t) t.
Proof.
  intros f g a t H D. apply continuity_pt_filterlim. apply continuity_pt_filterlim in D. rewrite (proj2 (Rleb_true t a)) by lra.
  eapply filterlim_ext_loc; [|exact D]. eapply filter_imp; [|exact (open_lt a t H)]. intros u Hu. rewrite (proj2 (Rleb_true u a)) by lra. reflexivity.
Qed.
Lemma right_cont : forall f g a t, a < t -> continuity_pt g t -> continuity_pt (fun t => if Rleb t a then f t else g t) t.
Proof.
  intros f g a t H D. apply continuity_pt_filterlim. apply continuity_pt_filterlim in D. rewrite (proj2 (Rleb_false t a)) by lra.
  eapply filterlim_ext_loc; [|exact D]. eapply filter_imp; [|exact (open_gt a t H)]. intros u Hu. rewrite (proj2 (Rleb_false u a)) by lra. reflexivity.
Qed.

(** ** One sub-trajectory *)
Definition finite (s : sub) : Prop := match s with SubS _ => True | Sub3 _ _ _ c => c <> None | Sub5 _ _ _ c => c <> None end.
Definition pv (s : sub) (t : R) : vec2 := match sub_pos s t with Some p => p | None => vzero end.
Definition vv (s : sub) (t : R) : vec2 := match sub_vel s t with Some p => p | None => vzero end.

Lemma finite_pos : forall s t, finite s -> sub_pos s t = Some (pv s t) /\ sub_vel s t = Some (vv s t).
Proof. intros [s|a b o [[cx cy]|]|a b o [[cx cy]|]] t H; cbn in *; auto; contradiction H; auto. Qed.
Lemma pos_finite : forall s t p, sub_pos s t = Some p -> finite s /\ pv s t = p.
Proof. intros s t p H. unfold pv. rewrite H. split; auto. destruct s as [s|a b o [[cx cy]|]|a b o [[cx cy]|]]; cbn in *; auto; discriminate. Qed.
Lemma vel_value : forall s t p, sub_vel s t = Some p -> vv s t = p.
Proof. intros s t p H. unfold vv. rewrite H. auto. Qed.

Lemma sub_derive : forall s t, finite s -> moves (pv s) t (vv s t).
Proof.
  intros [s|a b o [[cx cy]|]|a b o [[cx cy]|]] t H; try (contradiction H; reflexivity); unfold pv, vv, moves; cbn [sub_pos sub_vel vx vy].
  - unfold ss_pos, ss_vel. cbn [vadd vscale vsub vx vy]. unfold Rminus. split; apply is_derive_Reals; auto_derive; auto; ring.
  - unfold pos4, vel4. split; apply is_derive_Reals; auto_derive; auto; ring.
  - unfold pos6, vel6. split; apply is_derive_Reals; auto_derive; auto; ring.
Qed.
Lemma sub_cont : forall s t, finite s -> continuity_pt (fun t => vx (vv s t)) t /\ continuity_pt (fun t => vy (vv s t)) t.
Proof.
  assert (K : forall f t, ex_derive f t -> continuity_pt f t).
  { intros f t [d D]. apply derivable_continuous_pt. exists d. apply is_derive_Reals. exact D. }
  intros [s|a b o [[cx cy]|]|a b o [[cx cy]|]] t H; try (contradiction H; reflexivity); unfold vv; cbn [sub_pos sub_vel vx vy].
  - unfold ss_vel. cbn [vadd vscale vsub vx vy]. split; apply K; auto_derive; auto.
  - unfold vel4. split; apply K; auto_derive; auto.
  - unfold vel6. split; apply K; auto_derive; auto.
Qed.

(** ** A chain of sub-trajectories *)
Fixpoint at_time (tr : list sub) (t : R) : option sub :=
  match tr with
  | [] => None
  | s :: r => match r with [] => Some s | _ => if Rleb t (sub_t1 s) then Some s else at_time r t end
  end.
Fixpoint cpos (tr : list sub) (t : R) : vec2 :=
  match tr with [] => vzero | s :: r => match r with [] => pv s t | _ => if Rleb t (sub_t1 s) then pv s t else cpos r t end end.
Fixpoint cvel (tr : list sub) (t : R) : vec2 :=
  match tr with [] => vzero | s :: r => match r with [] => vv s t | _ => if Rleb t (sub_t1 s) then vv s t else cvel r t end end.
Lemma curve_at : forall tr t s, at_time tr t = Some s -> cpos tr t = pv s t /\ cvel tr t = vv s t.
Proof.
  induction tr as [|a r IH]; intros t s H; [discriminate|]. destruct r as [|b r]; [injection H as <-; auto|].
  change (at_time (a :: b :: r) t) with (if Rleb t (sub_t1 a) then Some a else at_time (b :: r) t) in H.
  change (cpos (a :: b :: r) t) with (if Rleb t (sub_t1 a) then pv a t else cpos (b :: r) t).
  change (cvel (a :: b :: r) t) with (if Rleb t (sub_t1 a) then vv a t else cvel (b :: r) t).
  destruct (Rleb t (sub_t1 a)); [injection H as <-; auto|apply IH; auto].
Qed.
Lemma at_time_in : forall tr t s, at_time tr t = Some s -> In s tr.
Proof.
  induction tr as [|a r IH]; intros t s H; [discriminate|]. destruct r as [|b r]; [injection H as <-; left; auto|].
  change (at_time (a :: b :: r) t) with (if Rleb t (sub_t1 a) then Some a else at_time (b :: r) t) in H.
  destruct (Rleb t (sub_t1 a)); [injection H as <-; left; auto|right; eapply IH; eauto].
Qed.
Lemma at_time_some : forall tr t, tr <> [] -> exists s, at_time tr t = Some s.
Proof.
  induction tr as [|a r IH]; intros t H; [contradiction|]. destruct r as [|b r]; [eexists; reflexivity|].
  change (at_time (a :: b :: r) t) with (if Rleb t (sub_t1 a) then Some a else at_time (b :: r) t).
  destruct (Rleb t (sub_t1 a)); [eexists; reflexivity|apply IH; discriminate].
Qed.
Lemma at_head : forall s r t, t <= sub_t1 s -> at_time (s :: r) t = Some s.
Proof. intros s r t H. destruct r; [reflexivity|]. cbn [at_time]. rewrite (proj2 (Rleb_true _ _)) by auto. reflexivity. Qed.

Lemma moves_glue : forall X Y V W a, (forall t, moves X t (V t)) -> (forall t, moves Y t (W t)) -> X a = Y a -> V a = W a ->
  forall t, moves (fun t => if Rleb t a then X t else Y t) t (if Rleb t a then V t else W t).
Proof.
  intros X Y V W a HX HY E1 E2 t.
  assert (K : forall (p : vec2 -> R) (f : vec2 -> R -> Prop), (forall u, p (if Rleb u a then X u else Y u) = if Rleb u a then p (X u) else p (Y u))) by (intros; destruct (Rleb u a); auto).
  assert (Q : forall p : vec2 -> R, (forall t, derivable_pt_lim (fun t => p (X t)) t (p (V t))) -> (forall t, derivable_pt_lim (fun t => p (Y t)) t (p (W t))) ->
    derivable_pt_lim (fun t => p (if Rleb t a then X t else Y t)) t (p (if Rleb t a then V t else W t))).
  { intros p HA HB. apply is_derive_Reals. eapply is_derive_ext; [intros u; symmetry; apply (K p (fun _ _ => True))|]. apply is_derive_Reals.
    destruct (Rtotal_order t a) as [L|[->|L]].
    - rewrite (proj2 (Rleb_true t a)) by lra. apply left_derive; auto.
    - rewrite (proj2 (Rleb_true a a)) by lra. apply (glue_derive (fun t => p (X t)) (fun t => p (Y t))); auto; [rewrite E2; auto|rewrite E1; auto].
    - rewrite (proj2 (Rleb_false t a)) by lra. apply right_derive; auto. }
  split; apply Q; intros u; apply HX || apply HY.
Qed.
Lemma cont_glue : forall (p : vec2 -> R) V W a, (forall t, continuity_pt (fun t => p (V t)) t) -> (forall t, continuity_pt (fun t => p (W t)) t) -> V a = W a ->
  forall t, continuity_pt (fun t => p (if Rleb t a then V t else W t)) t.
Proof.
  intros p V W a HV HW E t. apply continuity_pt_ext with (f := fun t => if Rleb t a then p (V t) else p (W t)).
  { intros u. destruct (Rleb u a); auto. }
  destruct (Rtotal_order t a) as [L|[->|L]].
  - apply left_cont; auto.
  - apply (glue_cont (fun t => p (V t)) (fun t => p (W t))); auto. rewrite E. auto.
  - apply right_cont; auto.
Qed.

(** The curve through a chain is continuously differentiable. *)
Lemma chain_curve : forall tr, chain tr -> Forall finite tr -> Forall (fun s => sub_t0 s <= sub_t1 s) tr -> tr <> [] ->
  c1_curve (cpos tr) (cvel tr).
Proof.
  induction tr as [|s r IH]; intros C F O N; [contradiction|]. inversion F as [|? ? Fs Fr]; subst. inversion O as [|? ? Os Or]; subst.
  destruct r as [|s' r].
  - intros t. split; [apply (sub_derive s t Fs)|apply sub_cont; auto].
  - cbn [chain] in C. destruct C as ((Et & p & v & P1 & V1 & P2 & V2) & C). specialize (IH C Fr Or ltac:(discriminate)).
    destruct (pos_finite _ _ _ P1) as [_ Q1]. destruct (pos_finite _ _ _ P2) as [_ Q2]. apply vel_value in V1. apply vel_value in V2.
    inversion Or as [|? ? Os' _]; subst.
    destruct (curve_at (s' :: r) (sub_t0 s') s' (at_head _ _ _ Os')) as [H1 H2].
    assert (EP : pv s (sub_t1 s) = cpos (s' :: r) (sub_t1 s)) by (rewrite Et at 2; congruence).
    assert (EV : vv s (sub_t1 s) = cvel (s' :: r) (sub_t1 s)) by (rewrite Et at 2; congruence).
    intros t. split; [|split].
    + exact (moves_glue (pv s) (cpos (s' :: r)) (vv s) (cvel (s' :: r)) (sub_t1 s) (fun t => sub_derive s t Fs) (fun t => proj1 (IH t)) EP EV t).
    + refine (cont_glue vx (vv s) (cvel (s' :: r)) (sub_t1 s) _ _ EV t); intros u; [apply sub_cont; auto|apply IH].
    + refine (cont_glue vy (vv s) (cvel (s' :: r)) (sub_t1 s) _ _ EV t); intros u; [apply sub_cont; auto|apply IH].
Qed.

(** ** Pieces built from boundary conditions *)
Lemma asserted_true : forall a b o, asserted a b o = true <-> a <= b /\ 0 < o.
Proof. intros. unfold asserted, Rgtb. rewrite andb_true_iff, Rleb_true, Rltb_true. tauto. Qed.
Definition bounds (s : sub) (a b : dpoint) (om : R) : Prop :=
  sub_t0 s = d_t a /\ sub_t1 s = d_t b /\ sub_om s = om /\ finite s
  /\ sub_pos s (d_t a) = Some (d_p a) /\ sub_vel s (d_t a) = Some (d_v a)
  /\ sub_pos s (d_t b) = Some (d_p b) /\ sub_vel s (d_t b) = Some (d_v b).
Lemma mk_3_ok : forall a b om, d_t a <= d_t b -> 0 < om -> exists s, mk_3 a b om = Ok s /\ sub_t0 s = d_t a /\ sub_t1 s = d_t b.
Proof. intros a b om H Ho. unfold mk_3. rewrite (proj2 (asserted_true _ _ _)) by auto. eexists. repeat split. Qed.
Lemma mk_3_inv : forall a b om s, mk_3 a b om = Ok s -> sub_t0 s = d_t a /\ sub_t1 s = d_t b /\ d_t a <= d_t b /\ 0 < om.
Proof.
  intros a b om s H. unfold mk_3 in H. destruct (asserted _ _ _) eqn:E; [|discriminate]. apply asserted_true in E. injection H as <-. cbn. tauto.
Qed.
Lemma mk_3_bounds : forall a b om s, mk_3 a b om = Ok s -> d_t a < d_t b -> bounds s a b om.
Proof.
  intros a b om s H Hl. unfold mk_3 in H. destruct (asserted _ _ _) eqn:E; [|discriminate]. apply asserted_true in E. injection H as <-.
  unfold interp4. rewrite (proj2 (Reqb_false (d_t b - d_t a) 0)) by lra. unfold bounds. cbn. split; auto. split; auto. split; auto. split; [discriminate|].
  assert (d_t b - d_t a <> 0) by lra.
  repeat split; f_equal; apply vec2_ext; unfold pos4, vel4; cbn; field; auto.
Qed.
Lemma mk_5_bounds : forall a b om s, mk_5 a b vzero vzero om = Ok s -> d_t a < d_t b -> bounds s a b om.
Proof.
  intros a b om s H Hl. unfold mk_5 in H. destruct (asserted _ _ _) eqn:E; [|discriminate]. apply asserted_true in E. injection H as <-.
  unfold interp6. rewrite (proj2 (Reqb_false (d_t b - d_t a) 0)) by lra. unfold bounds. cbn. split; auto. split; auto. split; auto. split; [discriminate|].
  assert (d_t b - d_t a <> 0) by lra.
  repeat split; f_equal; apply vec2_ext; unfold pos6, vel6, int_div_1_2, int_div_1_6; cbn; field; auto.
Qed.
Lemma mk_5_inv : forall a b x y om s, mk_5 a b x y om = Ok s -> sub_t0 s = d_t a /\ sub_t1 s = d_t b /\ d_t a <= d_t b /\ 0 < om.
Proof.
  intros a b x y om s H. unfold mk_5 in H. destruct (asserted _ _ _) eqn:E; [|discriminate]. apply asserted_true in E. injection H as <-. cbn. tauto.
Qed.
(** A piece between two rests at the same place stays there. *)
Lemma mk_3_rest : forall ta tb p om s, mk_3 (MkD ta p vzero) (MkD tb p vzero) om = Ok s -> ta < tb ->
  forall t, sub_pos s t = Some p /\ sub_vel s t = Some vzero.
Proof.
  intros ta tb p om s H Hl t. unfold mk_3 in H. destruct (asserted _ _ _) eqn:E; [|discriminate]. apply asserted_true in E. injection H as <-. cbn [d_t d_p d_v] in *.
  unfold interp4. rewrite (proj2 (Reqb_false (tb - ta) 0)) by lra. cbn.
  assert (tb - ta <> 0) by lra.
  split; f_equal; apply vec2_ext; unfold pos4, vel4; cbn; field; auto.
Qed.

(** ** Tiling *)
Lemma tiles_le : forall tr a b, tiles a b tr -> a <= b.
Proof. induction tr as [|s r IH]; intros a b H; cbn in H; [lra|]. destruct H as (_ & H1 & H2). apply IH in H2. lra. Qed.
Lemma tiles_order : forall tr a b, tiles a b tr -> Forall (fun s => sub_t0 s <= sub_t1 s) tr.
Proof. induction tr as [|s r IH]; intros a b H; cbn in H; constructor. { destruct H as (-> & H & _). auto. } destruct H as (_ & _ & H). eapply IH; eauto. Qed.
Lemma tiles_app : forall x y a b, tiles a b (x ++ y) <-> exists c, tiles a c x /\ tiles c b y.
Proof.
  induction x as [|s r IH]; intros y a b; cbn [app tiles].
  - split; [intros H; exists a; auto|intros (c & -> & H); auto].
  - split.
    + intros (E & L & H). apply IH in H. destruct H as (c & H1 & H2). exists c. auto.
    + intros (c & (E & L & H1) & H2). repeat split; auto. apply IH. exists c. auto.
Qed.
Lemma in_tiles : forall tr a b s, tiles a b tr -> In s tr -> a <= sub_t0 s /\ sub_t1 s <= b.
Proof.
  induction tr as [|x r IH]; intros a b s H I; [contradiction|]. cbn in H. destruct H as (E & L & H). destruct I as [->|I].
  - split; [lra|]. eapply tiles_le; eauto.
  - destruct (IH _ _ _ H I). lra.
Qed.
Lemma at_time_inside : forall tr a b s t, tiles a b tr -> In s tr -> sub_t0 s < t <= sub_t1 s -> at_time tr t = Some s.
Proof.
  induction tr as [|x r IH]; intros a b s t H I Ht; [contradiction|]. pose proof H as (E & L & H'). destruct I as [->|I].
  - apply at_head. lra.
  - destruct (in_tiles _ _ _ _ H' I). destruct r as [|y r]; [contradiction|].
    change (at_time (x :: y :: r) t) with (if Rleb t (sub_t1 x) then Some x else at_time (y :: r) t). rewrite (proj2 (Rleb_false _ _)) by lra. eapply IH; eauto.
Qed.
Lemma lasting_tiles : forall tr a b, tiles a b tr -> tiles a b (lasting tr).
Proof.
  induction tr as [|s r IH]; intros a b H; [exact H|]. cbn in H. destruct H as (E & L & H). cbn [lasting filter].
  destruct (Rltb (sub_t0 s) (sub_t1 s)) eqn:C; [cbn; auto|]. apply Rltb_false in C. assert (sub_t1 s = a) by lra. rewrite H0 in H. auto.
Qed.
Lemma at_lasting : forall r s b t, tiles (sub_t0 s) b (s :: r) -> sub_t0 s < sub_t1 s -> t <= b -> at_time (s :: r) t = at_time (lasting (s :: r)) t.
Proof.
  assert (K : forall r a b t, tiles a b r -> a < t <= b -> at_time r t = at_time (lasting r) t).
  { induction r as [|s r IH]; intros a b t H Ht; [reflexivity|]. pose proof H as (E & L & H'). cbn [lasting filter].
    destruct (Rltb (sub_t0 s) (sub_t1 s)) eqn:C.
    - apply Rltb_true in C. destruct (Rle_dec t (sub_t1 s)) as [Q|Q]; [rewrite !at_head; auto|].
      destruct r as [|y r]; [cbn in H'; lra|].
      assert (N : filter (fun s => Rltb (sub_t0 s) (sub_t1 s)) (y :: r) <> []).
      { intros N. pose proof (lasting_tiles _ _ _ H') as T. unfold lasting in T. rewrite N in T. cbn in T. lra. }
      change (at_time (s :: y :: r) t) with (if Rleb t (sub_t1 s) then Some s else at_time (y :: r) t).
      destruct (filter (fun s => Rltb (sub_t0 s) (sub_t1 s)) (y :: r)) as [|z q] eqn:F; [contradiction|].
      change (at_time (s :: z :: q) t) with (if Rleb t (sub_t1 s) then Some s else at_time (z :: q) t).
      rewrite (proj2 (Rleb_false _ _)) by lra. rewrite <- F. apply (IH (sub_t1 s) b); auto. lra.
    - apply Rltb_false in C. assert (Es : sub_t1 s = a) by lra. rewrite Es in H'.
      destruct r as [|y r]; [cbn in H'; lra|].
      change (at_time (s :: y :: r) t) with (if Rleb t (sub_t1 s) then Some s else at_time (y :: r) t).
      rewrite (proj2 (Rleb_false _ _)) by lra. apply (IH a b); auto. }
  intros r s b t H C Ht. destruct (Rle_dec t (sub_t1 s)) as [Q|Q].
  - cbn [lasting filter]. rewrite (proj2 (Rltb_true _ _)) by auto. rewrite !at_head; auto.
  - apply (K _ (sub_t0 s) b); auto. lra.
Qed.
