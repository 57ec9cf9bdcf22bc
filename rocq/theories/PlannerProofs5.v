(** Proofs about the configuration of the planner. *)
From Coq Require Import Reals Lra Lia List Bool.
From Verif Require Import Prelude FootPrint UnicycleFoot Ellipse Optimization FootSpec PlannerSearch Planner PlannerConfigSpec.
Import ListNotations.
Open Scope R_scope.

Ltac cfg_unfold H := unfold pl_call, pl_setFactors, pl_setIntStep, pl_setMaxLen1, pl_setMaxLen2, pl_setMaxAngle, pl_setWeights, pl_setTimings, pl_setPeriod, pl_setMinAngle, pl_setMinLen, pl_setWidth, prob_setWeights, prob_setMaxLen, prob_setMaxBack, prob_setMinWidth, prob_setMaxAngle, prob_setPosW, prob_setTimeW in H.
Ltac cfg_goal := unfold pl_call, pl_setFactors, pl_setIntStep, pl_setMaxLen1, pl_setMaxLen2, pl_setMaxAngle, pl_setWeights, pl_setTimings, pl_setPeriod, pl_setMinAngle, pl_setMinLen, pl_setWidth, prob_setWeights, prob_setMaxLen, prob_setMaxBack, prob_setMinWidth, prob_setMaxAngle, prob_setPosW, prob_setTimeW.
Ltac crunch H := repeat (first [rcaseh H | progress simpl in H]).
Ltac dmeth c H := try match type of H with context [match pl_method c with FsReference => _ | FsFootsteps => _ | FsBoth => _ end] => let Em := fresh "Em" in destruct (pl_method c) eqn:Em end.
Ltac crunchg := repeat (first [rcase1 | progress simpl]).

Lemma mult_nn : forall a b, 0 <= a -> 0 <= b -> ~ a * b < 0.
Proof. intros a b H1 H2. pose proof (Rmult_le_pos _ _ H1 H2). lra. Qed.

Lemma updated_intro : forall ch c c', Forall (fun x => pl_get (fst x) c' = snd x) ch ->
  (forall n, In n (map fst ch) \/ pl_get n c' = pl_get n c) -> updated ch c c'.
Proof.
  intros ch c c' H1 H2. split.
  - intros n v Hn. rewrite Forall_forall in H1. apply (H1 _ Hn).
  - intros n Hn. destruct (H2 n) as [Hi|]; [|auto]. apply in_map_iff in Hi. destruct Hi as ([n' v] & E & Hi). simpl in E; subst n'.
    exfalso; eapply Hn; eauto.
Qed.

Lemma call_true : forall c o c', pl_call c o = (c', true) -> updated (meant o c) c c'.
Proof.
  intros c o c' H. apply updated_intro; destruct o; cfg_unfold H; crunch H; try discriminate;
    dmeth c H; simpl in H; injection H as <-; simpl; try match goal with Em : pl_method c = _ |- _ => rewrite Em end;
    try solve [repeat constructor; cbn; rewrite ?Rabs_right by lra; reflexivity];
    intros n; destruct n; try (right; reflexivity); left; simpl; tauto.
Qed.

Lemma call_accepts : forall c o, snd (pl_call c o) = true <-> allowed o.
Proof.
  intros c o; destruct o; unfold allowed; split; intros H; cfg_unfold H; cfg_goal;
  try exact I; try (destruct (pl_method c); reflexivity); try reflexivity.
  all: crunch H; crunchg; try discriminate; try reflexivity; try lra;
    try (exfalso; eapply mult_nn; [| |eassumption]; lra).
Qed.

(** Only the two setters below can be refused after having changed something. *)
Definition atomic_op (o : plop) : bool :=
  match o with PlWeights _ _ | PlIntStep _ => false | _ => true end.

Lemma call_false : forall c o c', atomic_op o = true -> pl_call c o = (c', false) -> c' = c.
Proof.
  intros c o c' Ha H. destruct o; try discriminate Ha; cfg_unfold H; crunch H; try discriminate;
    dmeth c H; try discriminate; try (injection H as <-; destruct c; reflexivity);
    try (exfalso; eapply mult_nn; [| |eassumption]; lra); lra.
Qed.

Record CInv (c : plcfg) : Prop := MkCInv {
  ci_cons : consistent c;
  ci_back : p_maxBack (pl_prob c) = Some (pl_maxBack c)
            \/ (p_maxBack (pl_prob c) = None /\ pl_maxBack c = pl_maxLen c /\ 0 < pl_maxLen c)
}.

Lemma deg_nn : forall d, 0 <= d -> 0 <= deg2rad d.
Proof. intros d H. unfold deg2rad. pose proof PI_RGT_0. apply Rmult_le_pos; [apply Rmult_le_pos; lra|lra]. Qed.

Lemma new_fields :
  p_maxLen (pl_prob pl_new) = Some (2 / 10) /\ p_minWidth (pl_prob pl_new) = Some (8 / 100)
  /\ p_maxAngle (pl_prob pl_new) = Some (deg2rad 45) /\ p_maxBack (pl_prob pl_new) = None
  /\ p_posW (pl_prob pl_new) = 1 /\ p_timeW (pl_prob pl_new) = 5 / 2 /\ p_ell (pl_prob pl_new) = ell_clear.
Proof.
  pose proof (deg_nn 45 ltac:(lra)) as Hd.
  unfold pl_new; cbn [pl_prob].
  cfg_goal. crunchg; try lra. repeat split; try reflexivity; f_equal; lra.
Qed.

Lemma new_inv : CInv pl_new.
Proof.
  destruct new_fields as (A & B & C & D & E & F & _).
  pose proof (deg_nn 45 ltac:(lra)); pose proof (deg_nn 5 ltac:(lra)).
  constructor; [constructor|]; rewrite ?A, ?B, ?C, ?D, ?E, ?F; cbn; try lra; repeat split; try lra.
  all: try solve [exists (8/100); repeat split; lra].
  all: try solve [right; repeat split; auto; lra].
  all: try (apply f_equal; lra).
  all: try assumption.
Qed.

Lemma call_inv : forall c o, CInv c -> CInv (pl_run c o).
Proof.
  intros c o [[(T1 & T2 & T3) P (w & W1 & W2 & W3) [L1 L2] B [A1 A2] [M1 M2] [U1 U2] [F1 F2] [S1 S2]] K].
  unfold pl_run. destruct (pl_call c o) as [c' ok] eqn:H. cbn [fst].
  destruct o; cfg_unfold H; crunch H; dmeth c H; injection H as <- <-;
    (constructor; [constructor|]; cbn; try lra; eauto;
     try solve [repeat split; cbn; auto; try lra; apply Rabs_pos_lt; lra];
     try solve [eexists; repeat split; eauto; lra]; try solve [left; auto]; try solve [left; f_equal; lra];
     try solve [exfalso; eapply mult_nn; [| |eassumption]; lra]; try solve [split; [lra|apply Rabs_pos_lt; lra]]).
Qed.

Lemma history_inv : forall ops, CInv (pl_history ops).
Proof.
  intros ops. unfold pl_history. assert (H : CInv pl_new) by apply new_inv. revert H. generalize pl_new.
  induction ops as [|o ops IH]; intros c H; simpl; auto. apply IH, call_inv, H.
Qed.

Lemma enforced_reported : forall c, CInv c -> exists w, p_minWidth (pl_prob c) = Some w /\ forall sw prev pos ang da,
  admissible (pl_prob c) sw prev pos ang da <-> within_reported c w sw prev pos ang da.
Proof.
  intros c [[_ _ (w & W1 & W2 & W3) [L1 L2] B [A1 A2] _ _ _ _] K].
  exists w. split; [exact W1|]. intros sw prev pos ang da.
  unfold admissible, within_reported. rewrite L2, W1, A2. split.
  - intros (H1 & H2 & H3 & H4 & H5).
    split; [apply H1; auto|]. split; [apply H2; auto|]. split; [apply H3; auto|]. split; [exact H4|].
    destruct K as [K|(K1 & K2 & K3)].
    + specialize (H5 _ K). exact H5.
    + rewrite K2. split; [auto|]. intros _. apply H1; auto.
  - intros (H1 & H2 & H3 & H4 & H5 & H6). repeat split; auto; try (intros ? E; injection E as <-; auto).
    + destruct K as [K|(K & _)]; rewrite K in *; [|discriminate]. injection H as <-. exact H5.
    + destruct K as [K|(K & _)]; rewrite K in *; [|discriminate]. injection H as <-. exact H6.
Qed.
