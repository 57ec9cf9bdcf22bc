(** Specification of the phase vectors: what the phase boundaries mean. *)
From Coq Require Import List Bool Arith.
From Verif Require Import GenPhases.
Import ListNotations.

(** Phases of one foot from sample [a] on.  [mine]: for each planned step, is it made by this foot?  [bs]: the
    boundaries, two for each step (end of the switch, end of the swing) and the end of the last switch; [was]: the foot
    moved last. *)
Fixpoint drawn (a : nat) (mine : list bool) (bs : list nat) (was : bool) : list phase :=
  match mine, bs with
  | m :: ms, b :: c :: r =>
      repeat (if m then SwitchOut else SwitchIn) (b - a) ++ repeat (if m then Swing else Stance) (c - b) ++ drawn c ms r m
  | _, [e] => repeat (if was then SwitchIn else SwitchOut) (e - a)
  | _, _ => []
  end.
