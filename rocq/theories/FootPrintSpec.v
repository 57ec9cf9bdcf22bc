(** Specification vocabulary for foot prints.  Independent of the model's operations. *)
From Coq Require Import Reals List Sorting.Sorted String.
From Verif Require Import Prelude FootPrint.
Import ListNotations.
Open Scope R_scope.

(** [s] is the most recently stored step of [l] that has landed by time [t]. *)
Definition in_force (t : R) (l : list step) (s : step) : Prop :=
  exists before after, l = before ++ s :: after
                       /\ st_time s <= t
                       /\ Forall (fun s' => t < st_time s') after.

(** Same position, angle, impact time. *)
Definition same_placement (a b : step) : Prop :=
  st_pos a = st_pos b /\ st_angle a = st_angle b /\ st_time a = st_time b.

Definition nonneg_times (l : list step) : Prop := Forall (fun s => 0 <= st_time s) l.

(** Ordered by impact time. *)
Definition time_sorted (l : list step) : Prop :=
  StronglySorted (fun a b => st_time a <= st_time b) l.

(** What a client sees: impact times and number of steps after a sequence of calls, written from the
    documentation: a list of times in storage order. *)
Definition last_le (l : list R) (t : R) : option R :=
  fold_left (fun acc x => if Rle_dec x t then Some x else acc) l None.

Definition times_after (l : list R) (o : fpop) : list R :=
  match o with
  | OpAdd _ _ t => if Rlt_dec t 0 then l else l ++ [t]
  | OpDropPast => match rev l with [] => [] | x :: _ => [x] end
  | OpKeep t => match last_le l t with None => l | Some x => [x] end
  | OpClear => []
  | OpClearLast => rev (tl (rev l))
  | OpSetName _ => l
  end.

(** An operation sequence in which every accepted [addStep] is not before the last stored step.
    [l] is the list of stored times before the sequence. *)
Fixpoint ordered_adds (l : list R) (ops : list fpop) : Prop :=
  match ops with
  | [] => True
  | o :: rest =>
      match o with
      | OpAdd _ _ t => 0 <= t -> Forall (fun x => x <= t) l
      | _ => True
      end /\ ordered_adds (times_after l o) rest
  end.
