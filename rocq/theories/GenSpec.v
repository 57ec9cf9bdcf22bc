(** Specification vocabulary for phases and boundaries. *)
From Coq Require Import String Reals Lra Lia ZArith List Bool Sorting.Sorted Sorting.Permutation.
From Verif Require Import Prelude Rounding FootPrint GenPhases.
Import ListNotations.
Open Scope R_scope.

(** What the settings should always satisfy. *)
Record good_settings (g : gset) : Prop := MkGood {
  good_pct : 0 < g_switchPct g < 1;
  good_end : 0 < g_endSwitch g;
  good_nom : 0 < g_nomStep g <= g_maxStep g;
  good_mr : 0 <= g_mrBegin g <= g_mrEnd g /\ g_mrEnd g <= 1
}.

(** Contract of [std::sort] with the comparison of src/UnicycleGenerator.cpp:62-63: any permutation in
    non-decreasing order of impact time. *)
Definition tle (a b : tstep) : Prop := st_time (t_step a) <= st_time (t_step b).
Definition sort_result (l r : list step) (srt : list tstep) : Prop :=
  Permutation srt (all_steps l r) /\ StronglySorted tle srt.

(** The foot's list. *)
Definition foot_list (l r : list step) (b : bool) : list step := if b then l else r.

(** [ord] enumerates every stored step of both feet exactly once. *)
Definition enumerates (l r : list step) (ord : list tstep) : Prop :=
  NoDup (map (fun t => (t_left t, t_idx t)) ord)
  /\ forall b i s, In (MkT b i s) ord <-> nth_error (foot_list l r b) i = Some s.

(** Phase [p] at all instants of [a, b). *)
Definition seg (l : list phase) (a b : nat) (p : phase) : Prop :=
  forall i, (a <= i < b)%nat -> nth_error l i = Some p.

(** Phases of a foot of a result ([true] = left). *)
Definition foot_phases (ph : phases) (b : bool) : list phase := if b then ph_left ph else ph_right ph.
(** [i]-th phase boundary. *)
Definition bnd (ph : phases) (i : nat) : nat := nth i (ph_shift ph) 0%nat.

(** The [k]-th planned step [t]: its foot unloads, swings; the other loads, stands. *)
Definition step_window (ph : phases) (k : nat) (t : tstep) : Prop :=
  seg (foot_phases ph (t_left t)) (bnd ph (2 * k)) (bnd ph (2 * k + 1)) SwitchOut
  /\ seg (foot_phases ph (negb (t_left t))) (bnd ph (2 * k)) (bnd ph (2 * k + 1)) SwitchIn
  /\ seg (foot_phases ph (t_left t)) (bnd ph (2 * k + 1)) (bnd ph (2 * k + 2)) Swing
  /\ seg (foot_phases ph (negb (t_left t))) (bnd ph (2 * k + 1)) (bnd ph (2 * k + 2)) Stance.

(** Planned steps, i.e. all but the two initial ones, in order. *)
Definition planned (ord : list tstep) : list tstep := tl (tl ord).

(** The legal pairs of simultaneous phases. *)
Definition complementary (a b : phase) : Prop :=
  (a = Swing /\ b = Stance) \/ (a = Stance /\ b = Swing)
  \/ (a = SwitchIn /\ b = SwitchOut) \/ (a = SwitchOut /\ b = SwitchIn).

(** Indices of the planned steps of one foot, in order of execution. *)
Definition foot_indices (b : bool) (ord : list tstep) : list nat :=
  map t_idx (filter (fun t => Bool.eqb (t_left t) b) ord).

(** Foot prints that describe a walk starting from rest at [init]: the two initial steps have landed by
    [init]; planned steps are chronological, at least half a sampling period apart (and after [init]). *)
Fixpoint spaced (from gap : R) (l : list step) : Prop :=
  match l with
  | [] => True
  | s :: r => from + gap <= st_time s /\ spaced (st_time s) gap r
  end.

(** Impact times strictly increase along a foot's list. *)
Definition strictly_timed (l : list step) : Prop :=
  StronglySorted (fun a b => st_time a < st_time b) l.

(** [s] is a planned step of one of the feet (not the initial one). *)
Definition planned_step (l r : list step) (b : bool) (i : nat) (s : step) : Prop :=
  (1 <= i)%nat /\ nth_error (foot_list l r b) i = Some s.

(** A walk starting at [init] whose planned impacts are at least [gap] apart, the first one at least
    [lead] after [init]. *)
Record walk (l r : list step) (init lead gap : R) : Prop := MkWalk {
  w_left : strictly_timed l;
  w_right : strictly_timed r;
  w_nl : l <> [];
  w_nr : r <> [];
  w_first : forall b s, nth_error (foot_list l r b) 0 = Some s -> st_time s <= init;
  w_later : forall b i s, planned_step l r b i s -> init < st_time s /\ init + lead <= st_time s;
  w_gap : forall b i s b' i' s', planned_step l r b i s -> planned_step l r b' i' s' ->
          (b, i) <> (b', i') -> gap <= Rabs (st_time s - st_time s')
}.
