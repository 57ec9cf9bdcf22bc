(** Model of src/FootPrint.cpp and include/FootPrint.h. *)
From Coq Require Import Reals Lra List Bool String.
From Verif Require Import Prelude.
Import ListNotations.
Open Scope R_scope.

(** include/FootPrint.h:14-20, struct Step. *)
Record step : Type := MkStep {
  st_pos : vec2;
  st_angle : R;
  st_time : R;      (* impactTime *)
  st_name : string  (* footName *)
}.

(** include/FootPrint.h:24-26, class FootPrint.  The [std::shared_ptr<StepList>] is modelled by the
    list it points to (it is never null after the default constructor, src/FootPrint.cpp:12-15);
    for sharing of one list by two FootPrint objects see Shared.v. *)
Record footprint : Type := MkFP {
  fp_steps : list step;
  fp_name : string
}.

(** src/FootPrint.cpp:12-15 and include/FootPrint.h:26. *)
Definition fp_new : footprint := MkFP [] "footprint".

(** src/FootPrint.cpp:118-121, FootPrint::setFootName. *)
Definition fp_setName (n : string) (fp : footprint) : footprint := MkFP (fp_steps fp) n.

(** src/FootPrint.cpp:23-45, FootPrint::addStep(position, theta, impactTime).
    The stored name is the one of the foot print. *)
Definition fp_addStep (pos : vec2) (theta t : R) (fp : footprint) : footprint * bool :=
  if Rltb t 0 then (fp, false)
  else (MkFP (fp_steps fp ++ [MkStep pos theta t (fp_name fp)]) (fp_name fp), true).

(** src/FootPrint.cpp:47-50, FootPrint::addStep(Step). *)
Definition fp_addStep' (s : step) (fp : footprint) : footprint * bool :=
  fp_addStep (st_pos s) (st_angle s) (st_time s) fp.

(** [std::deque::back] on a list. *)
Fixpoint last_opt {A : Type} (l : list A) : option A :=
  match l with
  | [] => None
  | [a] => Some a
  | _ :: r => last_opt r
  end.

(** src/FootPrint.cpp:52-62, FootPrint::getLastStep. *)
Definition fp_getLast (fp : footprint) : option step := last_opt (fp_steps fp).

(** src/FootPrint.cpp:100-106, FootPrint::numberOfSteps. *)
Definition fp_number (fp : footprint) : nat := List.length (fp_steps fp).

(** src/FootPrint.cpp:64-70, FootPrint::dropPastSteps: erase [begin, begin+(n-1)). *)
Definition fp_dropPast (fp : footprint) : footprint * bool :=
  if Nat.ltb (fp_number fp) 1 then (fp, false)
  else (MkFP (skipn (fp_number fp - 1) (fp_steps fp)) (fp_name fp), true).

(** src/FootPrint.cpp:89-92, FootPrint::clearSteps. *)
Definition fp_clear (fp : footprint) : footprint := MkFP [] (fp_name fp).

(** src/FootPrint.cpp:72-87, FootPrint::keepOnlyPresentStep: find_if over reverse iterators,
    copy position, angle and time, clear, add. *)
Definition fp_keepPresent (time : R) (fp : footprint) : footprint * bool :=
  match List.find (fun a => Rleb (st_time a) time) (rev (fp_steps fp)) with
  | None => (fp, false)
  | Some d => fp_addStep (st_pos d) (st_angle d) (st_time d) (fp_clear fp)
  end.

(** src/FootPrint.cpp:94-98, FootPrint::clearLastStep. *)
Definition fp_clearLast (fp : footprint) : footprint :=
  if Nat.eqb (fp_number fp) 0 then fp
  else MkFP (removelast (fp_steps fp)) (fp_name fp).

(** Public operations of the class, for histories. *)
Inductive fpop : Type :=
| OpAdd (pos : vec2) (theta t : R)
| OpDropPast
| OpKeep (t : R)
| OpClear
| OpClearLast
| OpSetName (n : string).

Definition fp_run (fp : footprint) (o : fpop) : footprint :=
  match o with
  | OpAdd p a t => fst (fp_addStep p a t fp)
  | OpDropPast => fst (fp_dropPast fp)
  | OpKeep t => fst (fp_keepPresent t fp)
  | OpClear => fp_clear fp
  | OpClearLast => fp_clearLast fp
  | OpSetName n => fp_setName n fp
  end.

Definition fp_history (ops : list fpop) : footprint := fold_left fp_run ops fp_new.
