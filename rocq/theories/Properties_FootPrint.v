(** C01, C02: foot prints. *)
From Coq Require Import Reals Lra List String Sorting.Sorted.
From Verif Require Import Prelude FootPrint FootPrintSpec FootPrintProofs.
Import ListNotations.
Open Scope R_scope.

(** C01.  On foot prints with non-negative impact times (all that the API can build, see
    [C02_history_times]) the call succeeds iff some step has landed, then keeps exactly the step in
    force, and otherwise changes nothing. *)
Theorem C01_keepOnlyPresentStep : forall fp t, nonneg_times (fp_steps fp) ->
  let '(fp', ok) := fp_keepPresent t fp in
  (ok = true <-> exists s, In s (fp_steps fp) /\ st_time s <= t)
  /\ (ok = true -> exists s s', in_force t (fp_steps fp) s /\ fp_steps fp' = [s']
                               /\ same_placement s' s /\ st_name s' = fp_name fp)
  /\ (ok = false -> fp' = fp)
  /\ fp_name fp' = fp_name fp.
Proof. exact keepPresent_spec. Qed.
Print Assumptions C01_keepOnlyPresentStep.

(** C01, ordered lists: the kept step has the greatest impact time among the landed ones. *)
Theorem C01_in_force_is_latest : forall t l s, time_sorted l -> in_force t l s ->
  forall s', In s' l -> st_time s' <= t -> st_time s' <= st_time s.
Proof. exact in_force_max. Qed.
Print Assumptions C01_in_force_is_latest.

(** C01, finding: a list given through the constructor (or the mutable accessor) may hold a negative
    impact time; then the call can return false and still delete every step. *)
Theorem C01_failed_keep_preserves_refuted : exists fp t, fp_steps fp <> [] /\
  fp_keepPresent t fp = (MkFP [] (fp_name fp), false).
Proof. exact keepPresent_loses_all. Qed.
Print Assumptions C01_failed_keep_preserves_refuted.

Example C01_nonvacuous :
  nonneg_times (fp_steps (fp_history [OpAdd (V2 1 0) 0 0; OpAdd (V2 2 0) 0 5]))
  /\ exists s, In s (fp_steps (fp_history [OpAdd (V2 1 0) 0 0; OpAdd (V2 2 0) 0 5])) /\ st_time s <= 3.
Proof.
  split; [apply history_times|].
  cbn -[Rltb]. unfold fp_addStep, Rltb. cbn -[Rlt_dec].
  destruct (Rlt_dec 0 0); [lra|]. cbn -[Rlt_dec]. destruct (Rlt_dec 5 0); [lra|].
  eexists; split; [left; reflexivity|]. simpl; lra.
Qed.

(** C02.  For every history the stored impact times are those of the documented list semantics, and
    none is negative. *)
Theorem C02_history_times : forall ops, nonneg_times (fp_steps (fp_history ops))
  /\ map st_time (fp_steps (fp_history ops)) = fold_left times_after ops [].
Proof. exact history_times. Qed.
Print Assumptions C02_history_times.

(** C02.  Ordered insertions keep the list ordered, whatever else is called in between. *)
Theorem C02_history_sorted : forall ops, ordered_adds [] ops -> time_sorted (fp_steps (fp_history ops)).
Proof. exact history_sorted. Qed.
Print Assumptions C02_history_sorted.

Theorem C02_refused_add_changes_nothing : forall p a t fp fp',
  fp_addStep p a t fp = (fp', false) -> fp' = fp /\ t < 0.
Proof. exact addStep_refused. Qed.
Print Assumptions C02_refused_add_changes_nothing.

Theorem C02_accepted_add_appends : forall p a t fp fp', fp_addStep p a t fp = (fp', true) ->
  0 <= t /\ fp_steps fp' = fp_steps fp ++ [MkStep p a t (fp_name fp)] /\ fp_name fp' = fp_name fp.
Proof. exact addStep_accepted. Qed.
Print Assumptions C02_accepted_add_appends.

(** C02, finding: the order is not enforced by addStep itself. *)
Theorem C02_addStep_enforces_order_refuted : exists ops, ~ time_sorted (fp_steps (fp_history ops)).
Proof. exact addStep_unordered. Qed.
Print Assumptions C02_addStep_enforces_order_refuted.

Example C02_nonvacuous :
  ordered_adds [] [OpAdd vzero 0 0; OpAdd vzero 0 1; OpClearLast; OpAdd vzero 0 0.5; OpKeep 0.2; OpAdd vzero 0 7].
Proof.
  cbn -[Rlt_dec Rle_dec]. repeat (destruct (Rlt_dec _ _); [lra|]; cbn -[Rlt_dec Rle_dec]).
  unfold last_le; cbn -[Rle_dec Rlt_dec].
  repeat (destruct (Rle_dec _ _); try lra; cbn -[Rle_dec Rlt_dec]).
  repeat split; intros; repeat constructor; try lra.
Qed.
