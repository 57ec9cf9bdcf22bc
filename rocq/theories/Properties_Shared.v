(** C92: foot print objects and the lists they point to. *)
From Coq Require Import String.
From Coq Require Import Reals Lra Lia List Bool Sorting.Sorted Sorting.Permutation.
From Verif Require Import Prelude FootPrint FootPrintSpec Shared SharedSpec SharedProofs.
Import ListNotations.
Open Scope R_scope.

(** C92, full statement: every program without pointers of its own sees foot prints as values, that is
    [same_run (w_run e w_new ops) (v_run e [] ops)] whatever it copies and assigns.  Proved for
    programs that neither copy nor assign; the rest is refuted below.  So one foot print object,
    used through its methods, is the one of FootPrint.v, whatever is done to other objects. *)
Theorem C92_values_partial : forall e ops, Forall unshared ops -> same_run (w_run e w_new ops) (v_run e [] ops).
Proof. intros e ops U. exact (run_refines e ops w_new U own_new). Qed.
Print Assumptions C92_values_partial.

(** C92, finding: a copy of a foot print is not a copy of the steps.  Adding a step to the copy adds
    it to the original. *)
Theorem C92_copy_refuted : exists e ops w v vs v', sorts e
  /\ w_run e w_new ops = Ok (w, v) /\ v_run e [] ops = Ok (vs, v')
  /\ w_steps w 0 = Some [MkStep vzero 0 0 "footprint"] /\ nth_error vs 0 = Some (Some [], "footprint"%string).
Proof.
  exists (MkOpen by_time ""), [WNew; WCopy 0; WDo 1 (OpAdd vzero 0 0)].
  assert (F : Rltb 0 0 = false) by (apply Rltb_false; lra).
  do 4 eexists. split; [apply by_time_sorts|].
  split; [|split]; [cbn -[Rltb]; unfold fp_addStep; rewrite F; reflexivity|cbn -[Rltb]; unfold fp_addStep; rewrite F; reflexivity|].
  split; reflexivity.
Qed.
Print Assumptions C92_copy_refuted.

(** C92, finding: clearing the copy clears the original, and so does clearing after an assignment. *)
Theorem C92_assign_refuted : exists e ops w v vs v', sorts e
  /\ w_run e w_new ops = Ok (w, v) /\ v_run e [] ops = Ok (vs, v')
  /\ w_steps w 0 = Some [] /\ exists s, nth_error vs 0 = Some (Some [s], "footprint"%string).
Proof.
  exists (MkOpen by_time ""), [WFrom [MkStep vzero 0 0 "left"]; WNew; WAssign 1 0; WDo 1 OpClear].
  do 4 eexists. split; [apply by_time_sorts|].
  split; [|split]; [reflexivity|reflexivity|]. split; [reflexivity|eexists; reflexivity].
Qed.
Print Assumptions C92_assign_refuted.

(** C92.  What holds instead: the copy and the original show the same steps after whatever follows,
    until one of the two is assigned to or moved from. *)
Theorem C92_copy_is_alias : forall e w o l w1 v1 ops w2 v2,
  w_steps w o = Some l -> w_step e w (WCopy o) = Ok (w1, v1) ->
  Forall (fun op => ~ redirects o op /\ ~ redirects (List.length (w_objs w)) op) ops ->
  w_run e w1 ops = Ok (w2, v2) -> w_steps w2 o = w_steps w2 (List.length (w_objs w)).
Proof. intros. apply tied_same. eapply tied_run; [eassumption| |eassumption]. eapply copy_tied; eauto. Qed.
Print Assumptions C92_copy_is_alias.

(** C92.  The constructor that takes a list orders the caller's own list by impact time, loses and
    invents no step, changes no step's name, and shows that list. *)
Theorem C92_constructor : forall e w p l w' v, sorts e -> nth_error (w_cells w) p = Some l ->
  w_step e w (WWrap (Some p)) = Ok (w', v) ->
  exists l', w_steps w' (List.length (w_objs w)) = Some l' /\ nth_error (w_cells w') p = Some l'
    /\ Permutation l' l /\ time_sorted l' /\ w_name w' (List.length (w_objs w)) = Some "footprint"%string.
Proof.
  intros e [cells objs] p l w' v Se H H0. cbn [w_step w_cells w_objs] in *. rewrite H in H0. inversion H0; subst; clear H0.
  assert (L : (p < List.length cells)%nat) by (apply nth_error_Some; congruence).
  exists (e_sort e l). unfold w_steps, w_name. cbn [w_cells w_objs].
  rewrite nth_error_app2, Nat.sub_diag by lia. cbn [nth_error o_ptr option_map o_name].
  rewrite upd_same by auto. destruct (Se l). auto.
Qed.
Print Assumptions C92_constructor.

(** C92, finding: two foot prints made from one list are one foot print; a step added to the left
    foot is a step of the right foot. *)
Theorem C92_one_list_refuted : exists e ops w v, sorts e /\ w_run e w_new ops = Ok (w, v)
  /\ w_steps w 0 = w_steps w 1 /\ exists s, w_steps w 1 = Some [s] /\ st_name s = "left"%string /\ w_name w 1 = Some "right"%string.
Proof.
  exists (MkOpen by_time ""), [WAlloc []; WWrap (Some 0%nat); WWrap (Some 0%nat); WDo 0 (OpSetName "left");
    WDo 1 (OpSetName "right"); WDo 0 (OpAdd vzero 0 0)].
  assert (F : Rltb 0 0 = false) by (apply Rltb_false; lra).
  do 2 eexists. split; [apply by_time_sorts|].
  split; [cbn -[Rltb]; unfold fp_addStep; rewrite F; reflexivity|]. split; [reflexivity|].
  eexists; split; [reflexivity|split; reflexivity].
Qed.
Print Assumptions C92_one_list_refuted.

(** C92.  No program that avoids null pointers, hence moves, meets undefined behaviour, even when it
    copies, assigns and shares. *)
Theorem C92_no_ub : forall e ops, Forall no_null ops -> w_run e w_new ops <> UB.
Proof. intros e ops N. apply whole_run; auto. apply whole_new. Qed.
Print Assumptions C92_no_ub.

(** C92, finding: the null pointer of a moved-from foot print is tested by addStep, getLastStep,
    dropPastSteps, clearLastStep and numberOfSteps, but dereferenced by clearSteps,
    keepOnlyPresentStep and getSteps. *)
Theorem C92_moved_from_refuted : forall e f, In f [OpClear; OpKeep 0] ->
  w_run e w_new [WNew; WMove 0; WDo 0 f] = UB
  /\ exists w v, w_run e w_new [WNew; WMove 0; WDo 0 OpClearLast; WDo 0 (OpAdd vzero 0 0)] = Ok (w, v)
     /\ v = [true; true; true; false].
Proof. intros e f [<-|[<-|[]]]; split; [reflexivity|do 2 eexists; split; reflexivity|reflexivity|do 2 eexists; split; reflexivity]. Qed.
Print Assumptions C92_moved_from_refuted.

(** A program with three objects, of which one is moved; the constructor reorders. *)
Definition late_first : list step := [MkStep (V2 1 0) 0 2 "left"; MkStep vzero 0 1 "left"].
Example C92_example : let ops := [WNew; WFrom late_first; WMove 0; WDo 1 (OpAdd (V2 3 0) 0 5); WDo 2 (OpSetName "right")] in
  Forall unshared ops /\ exists w v, w_run (MkOpen by_time "") w_new ops = Ok (w, v)
  /\ w_steps w 1 = Some [MkStep vzero 0 1 "left"; MkStep (V2 1 0) 0 2 "left"; MkStep (V2 3 0) 0 5 "footprint"]
  /\ w_name w 2 = Some "right"%string.
Proof.
  split; [repeat constructor|].
  assert (F : Rltb 5 0 = false) by (apply Rltb_false; lra).
  assert (B : by_time late_first = [MkStep vzero 0 1 "left"; MkStep (V2 1 0) 0 2 "left"]).
  { cbn. destruct (Rle_dec 2 1); [lra|reflexivity]. }
  cbn -[by_time late_first Rltb]. rewrite B. unfold fp_addStep. rewrite F. cbn.
  do 2 eexists. split; [reflexivity|split; reflexivity].
Qed.
Example C92_alias_example : exists w, w_run (MkOpen by_time "") w_new [WFrom late_first] = Ok (w, [true])
  /\ exists l, w_steps w 0 = Some l /\ l <> [].
Proof.
  eexists; split; [reflexivity|]. eexists; split; [reflexivity|].
  cbn. destruct (Rle_dec _ _); discriminate.
Qed.
