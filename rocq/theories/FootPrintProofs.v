From Coq Require Import Reals Lra Lia List Bool String Sorting.Sorted.
From Verif Require Import Prelude FootPrint FootPrintSpec.
Import ListNotations.
Open Scope R_scope.

Lemma find_rev_some : forall t (l : list step) s,
  List.find (fun a => Rleb (st_time a) t) (rev l) = Some s -> in_force t l s.
Proof.
  intros t l; induction l as [|x l IH] using rev_ind; intros s H.
  - discriminate.
  - rewrite rev_app_distr in H; simpl in H.
    destruct (Rleb (st_time x) t) eqn:E.
    + injection H as <-. apply Rleb_true in E.
      exists l, []; repeat split; auto.
    + apply Rleb_false in E. destruct (IH _ H) as (b & a & -> & Hs & Ha).
      exists b, (a ++ [x]); repeat split; auto.
      * rewrite <- app_assoc; reflexivity.
      * apply Forall_app; split; auto.
Qed.

Lemma find_rev_none : forall t (l : list step),
  List.find (fun a => Rleb (st_time a) t) (rev l) = None -> Forall (fun s => t < st_time s) l.
Proof.
  intros t l H. apply Forall_forall; intros s Hs.
  apply (List.find_none _ _ H s) in Hs || (apply in_rev in Hs; apply (List.find_none _ _ H s) in Hs).
  apply Rleb_false in Hs; exact Hs.
Qed.

Lemma in_force_in : forall t l s, in_force t l s -> In s l /\ st_time s <= t.
Proof. intros t l s (b & a & -> & H & _); split; auto. apply in_or_app; right; left; auto. Qed.

Lemma in_force_max : forall t l s, time_sorted l -> in_force t l s ->
  forall s', In s' l -> st_time s' <= t -> st_time s' <= st_time s.
Proof.
  intros t l s Hs (b & a & -> & H & Ha) s' Hin Hle.
  apply in_app_or in Hin; destruct Hin as [Hin|[->|Hin]].
  - clear -Hs Hin. induction b as [|x b IH]; [contradiction|].
    simpl in Hs; inversion Hs; subst. destruct Hin as [->|Hin].
    + rewrite Forall_forall in H2. apply (H2 s). apply in_or_app; right; left; auto.
    + auto.
  - lra.
  - rewrite Forall_forall in Ha. specialize (Ha _ Hin). lra.
Qed.

(** C01 *)
Lemma keepPresent_spec : forall fp t, nonneg_times (fp_steps fp) ->
  let '(fp', ok) := fp_keepPresent t fp in
  (ok = true <-> exists s, In s (fp_steps fp) /\ st_time s <= t)
  /\ (ok = true -> exists s s', in_force t (fp_steps fp) s /\ fp_steps fp' = [s']
                               /\ same_placement s' s /\ st_name s' = fp_name fp)
  /\ (ok = false -> fp' = fp)
  /\ fp_name fp' = fp_name fp.
Proof.
  intros fp t Hnn. unfold fp_keepPresent.
  destruct (List.find _ _) as [d|] eqn:E.
  - apply find_rev_some in E. destruct (in_force_in _ _ _ E) as [Hin Hle].
    unfold fp_addStep. assert (0 <= st_time d) by (unfold nonneg_times in Hnn; rewrite Forall_forall in Hnn; auto).
    destruct (Rltb (st_time d) 0) eqn:E0; [apply Rltb_true in E0; lra|].
    repeat split; try discriminate.
    + intros _; exists d; auto.
    + intros _. simpl. exists d. eexists. split; [exact E|].
      split; [reflexivity|]. split; [repeat split|reflexivity].
  - apply find_rev_none in E.
    repeat split; try discriminate; auto.
    intros (s & Hin & Hle). rewrite Forall_forall in E. specialize (E _ Hin). lra.
Qed.

Lemma keepPresent_in_force : forall fp t fp', fp_keepPresent t fp = (fp', true) ->
  exists s s', in_force t (fp_steps fp) s /\ fp_steps fp' = [s'] /\ same_placement s' s.
Proof.
  intros fp t fp'. unfold fp_keepPresent.
  destruct (List.find _ _) as [d|] eqn:E; [|discriminate].
  apply find_rev_some in E. unfold fp_addStep.
  destruct (Rltb _ _); [discriminate|]. intros H; injection H as <-.
  exists d. eexists. split; [exact E|]. split; [reflexivity|]. repeat split.
Qed.

Lemma keepPresent_loses_all : exists fp t, fp_steps fp <> [] /\
  fp_keepPresent t fp = (MkFP [] (fp_name fp), false).
Proof.
  exists (MkFP [MkStep vzero 0 (-1) "left"%string; MkStep vzero 0 3 "left"%string] "left"), 0.
  split; [discriminate|]. unfold fp_keepPresent; simpl.
  unfold Rleb. destruct (Rle_dec 3 0); [lra|]. destruct (Rle_dec (-1) 0); [|lra].
  simpl. unfold fp_addStep, Rltb; simpl. destruct (Rlt_dec (-1) 0); [reflexivity|lra].
Qed.

(** C02: refinement to the list of impact times. *)
Definition times (fp : footprint) : list R := map st_time (fp_steps fp).

Lemma last_le_app : forall l x t, last_le (l ++ [x]) t = if Rle_dec x t then Some x else last_le l t.
Proof. intros; unfold last_le; rewrite fold_left_app; reflexivity. Qed.

Lemma find_last_le : forall t (l : list step),
  option_map st_time (List.find (fun a => Rleb (st_time a) t) (rev l)) = last_le (map st_time l) t.
Proof.
  intros t l; induction l as [|x l IH] using rev_ind; [reflexivity|].
  rewrite rev_app_distr, map_app; simpl. rewrite last_le_app. unfold Rleb at 1.
  destruct (Rle_dec (st_time x) t); simpl; auto.
Qed.

Lemma skipn_last : forall {A} (l : list A), l <> [] ->
  skipn (List.length l - 1) l = match rev l with [] => [] | x :: _ => [x] end.
Proof.
  intros A l H. destruct (rev l) as [|x r] eqn:E.
  - apply (f_equal (@rev A)) in E. rewrite rev_involutive in E. simpl in E. congruence.
  - apply (f_equal (@rev A)) in E. rewrite rev_involutive in E. subst l. simpl.
    rewrite app_length; simpl. replace (List.length (rev r) + 1 - 1)%nat with (List.length (rev r)) by lia.
    rewrite skipn_app, skipn_all, Nat.sub_diag. reflexivity.
Qed.

Lemma removelast_rev : forall {A} (l : list A), removelast l = rev (tl (rev l)).
Proof.
  intros A l; induction l as [|x l IH] using rev_ind; [reflexivity|].
  rewrite removelast_last, rev_app_distr; simpl. rewrite rev_involutive; reflexivity.
Qed.

Lemma map_tl : forall {A B} (f : A -> B) l, map f (tl l) = tl (map f l).
Proof. intros A B f [|]; reflexivity. Qed.

Lemma run_times : forall o fp, nonneg_times (fp_steps fp) -> times (fp_run fp o) = times_after (times fp) o.
Proof.
  intros o fp Hnn; destruct o; unfold times; simpl.
  - unfold fp_addStep, Rltb. destruct (Rlt_dec t 0); simpl; [reflexivity|]. rewrite map_app; reflexivity.
  - unfold fp_dropPast, fp_number. destruct (fp_steps fp) as [|x l] eqn:E; simpl.
    + rewrite E; reflexivity.
    + pose proof (skipn_last (x :: l)) as H. rewrite <- E in *.
      assert (Hne : fp_steps fp <> []) by (rewrite E; discriminate).
      specialize (H Hne). replace (match List.length l with O => 0%nat | S l0 => S l0 end) with (List.length l) by (destruct (List.length l); auto).
      assert (HL : (List.length l = List.length (fp_steps fp) - 1)%nat) by (rewrite E; simpl; lia).
      assert (Hr : rev (map st_time l) ++ [st_time x] = map st_time (rev (fp_steps fp)))
        by (rewrite E; simpl; rewrite map_app, map_rev; reflexivity).
      rewrite Nat.sub_0_r, Hr, HL, H. destruct (rev (fp_steps fp)); reflexivity.
  - unfold fp_keepPresent. rewrite <- find_last_le.
    destruct (List.find _ _) as [d|] eqn:E; simpl; [|reflexivity].
    apply find_rev_some, in_force_in in E. destruct E as [Hin _].
    unfold nonneg_times in Hnn; rewrite Forall_forall in Hnn; apply Hnn in Hin.
    unfold fp_addStep. destruct (Rltb _ 0) eqn:E0; [apply Rltb_true in E0; lra|]. reflexivity.
  - reflexivity.
  - unfold fp_clearLast, fp_number. destruct (fp_steps fp) as [|x l] eqn:E.
    + simpl. rewrite E. reflexivity.
    + rewrite <- E. replace (Nat.eqb (List.length (fp_steps fp)) 0) with false by (rewrite E; reflexivity).
      cbn [fp_steps]. rewrite removelast_rev, map_rev, map_tl, map_rev. rewrite E; reflexivity.
  - reflexivity.
Qed.

Lemma nonneg_times_iff : forall l, nonneg_times l <-> Forall (fun x => 0 <= x) (map st_time l).
Proof. intros; unfold nonneg_times. rewrite Forall_map. tauto. Qed.

Lemma last_le_in : forall l t x, last_le l t = Some x -> In x l /\ x <= t.
Proof.
  intros l t; induction l as [|y l IH] using rev_ind; intros x H; [discriminate|].
  rewrite last_le_app in H. destruct (Rle_dec y t).
  - injection H as <-. split; auto. apply in_or_app; right; left; auto.
  - destruct (IH _ H); split; auto. apply in_or_app; auto.
Qed.

Lemma times_after_Forall : forall (P : R -> Prop) o l, Forall P l ->
  (forall p a t, o = OpAdd p a t -> 0 <= t -> P t) -> Forall P (times_after l o).
Proof.
  intros P o l H Hadd; destruct o; simpl; auto.
  - destruct (Rlt_dec t 0); auto. apply Forall_app; split; auto. constructor; auto.
    apply (Hadd pos theta t); auto. lra.
  - destruct (rev l) as [|x r] eqn:E; constructor; auto.
    rewrite Forall_forall in H; apply H. apply in_rev; rewrite E; left; auto.
  - destruct (last_le l t) eqn:E; auto. apply last_le_in in E as [Hin _].
    rewrite Forall_forall in H. constructor; auto.
  - apply Forall_rev. rewrite Forall_forall in *. intros x Hx. apply H.
    apply in_rev. destruct (rev l); [contradiction|right; auto].
Qed.

Lemma run_nonneg : forall o fp, nonneg_times (fp_steps fp) -> nonneg_times (fp_steps (fp_run fp o)).
Proof.
  intros o fp H. apply nonneg_times_iff. change (map st_time (fp_steps (fp_run fp o))) with (times (fp_run fp o)).
  rewrite run_times; auto. apply nonneg_times_iff in H. apply times_after_Forall; auto.
Qed.

Lemma history_from : forall ops fp, nonneg_times (fp_steps fp) ->
  nonneg_times (fp_steps (fold_left fp_run ops fp))
  /\ times (fold_left fp_run ops fp) = fold_left times_after ops (times fp).
Proof.
  induction ops as [|o ops IH]; intros fp H; simpl; auto.
  destruct (IH (fp_run fp o) (run_nonneg o fp H)) as [H1 H2]. split; auto.
  rewrite H2, run_times; auto.
Qed.

Lemma history_times : forall ops, nonneg_times (fp_steps (fp_history ops))
  /\ map st_time (fp_steps (fp_history ops)) = fold_left times_after ops [].
Proof. intros; apply (history_from ops fp_new). constructor. Qed.

Lemma SS_app1 : forall l x, StronglySorted Rle l -> Forall (fun y => y <= x) l -> StronglySorted Rle (l ++ [x]).
Proof.
  induction l as [|a l IH]; intros x Hs Hf; simpl.
  - constructor; constructor.
  - inversion Hs; inversion Hf; subst. constructor; auto.
    apply Forall_app; split; auto.
Qed.

Lemma SS_removelast : forall l, StronglySorted Rle l -> StronglySorted Rle (removelast l).
Proof.
  induction l as [|a l IH]; intros Hs; [constructor|].
  inversion Hs; subst. simpl. destruct l; [constructor|]. constructor; auto.
  rewrite Forall_forall in *. intros y Hy. apply H2.
  rewrite (app_removelast_last r (l := r :: l)) by discriminate. apply in_or_app; auto.
Qed.

Lemma ordered_adds_sorted : forall ops l, StronglySorted Rle l -> ordered_adds l ops ->
  StronglySorted Rle (fold_left times_after ops l).
Proof.
  induction ops as [|o ops IH]; intros l Hs Ho; simpl in *; auto.
  destruct Ho as [Ho Hr]. apply IH; auto. clear IH Hr.
  destruct o; simpl; auto; try (constructor; fail).
  - destruct (Rlt_dec t 0); auto. apply SS_app1; auto. apply Ho; lra.
  - destruct (rev l); constructor; constructor.
  - destruct (last_le l t); auto. constructor; constructor.
  - rewrite <- removelast_rev. apply SS_removelast; auto.
Qed.

Lemma time_sorted_map : forall l, time_sorted l <-> StronglySorted Rle (map st_time l).
Proof.
  unfold time_sorted; induction l as [|a l IH]; simpl; split; intros H; try constructor; inversion H; subst; try tauto.
  - rewrite Forall_map; auto.
  - rewrite Forall_map in *; auto.
Qed.

Lemma history_sorted : forall ops, ordered_adds [] ops -> time_sorted (fp_steps (fp_history ops)).
Proof.
  intros ops H. apply time_sorted_map. destruct (history_times ops) as [_ ->].
  apply ordered_adds_sorted; auto. constructor.
Qed.

Lemma addStep_refused : forall p a t fp fp', fp_addStep p a t fp = (fp', false) -> fp' = fp /\ t < 0.
Proof.
  unfold fp_addStep; intros p a t fp fp' H. destruct (Rltb t 0) eqn:E; [|discriminate].
  apply Rltb_true in E. injection H as ->. auto.
Qed.

Lemma addStep_accepted : forall p a t fp fp', fp_addStep p a t fp = (fp', true) ->
  0 <= t /\ fp_steps fp' = fp_steps fp ++ [MkStep p a t (fp_name fp)] /\ fp_name fp' = fp_name fp.
Proof.
  unfold fp_addStep; intros p a t fp fp' H. destruct (Rltb t 0) eqn:E; [discriminate|].
  apply Rltb_false in E. injection H as <-. auto.
Qed.

Lemma addStep_unordered : exists ops, ~ time_sorted (fp_steps (fp_history ops)).
Proof.
  exists [OpAdd vzero 0 2; OpAdd vzero 0 1]. intros H.
  apply time_sorted_map in H. destruct (history_times [OpAdd vzero 0 2; OpAdd vzero 0 1]) as [_ E].
  rewrite E in H. cbn -[Rlt_dec] in H.
  destruct (Rlt_dec 2 0); [lra|]. destruct (Rlt_dec 1 0); [lra|].
  simpl in H. inversion H; subst. inversion H3; subst. lra.
Qed.
