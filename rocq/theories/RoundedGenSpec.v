(** Specification vocabulary for the rounded phase computation. *)
From Coq Require Import String Reals ZArith List Bool.
From Flocq Require Import Core.
From Verif Require Import Prelude Rounding FootPrint GenPhases GenSpec RoundedGen.
Import ListNotations.
Open Scope R_scope.

(** What a rounding of real numbers has to satisfy here: it is monotone and odd, and 0, 1/2, 1, the doubles of
    rounded values and all rounded values are exact. *)
Record rounding (rnd : R -> R) : Prop := MkRnd {
  r_mono : forall x y, x <= y -> rnd x <= rnd y;
  r_opp : forall x, rnd (- x) = - rnd x;
  r_idem : forall x, rnd (rnd x) = rnd x;
  r_half : rnd (1 / 2) = 1 / 2;
  r_twice : forall x, rnd x = x -> rnd (2 * x) = 2 * x
}.

(** Arguments of the setters are doubles. *)
Definition gop_b64 (o : gop) : Prop :=
  match o with
  | GoSwitch r => is_b64 r
  | GoTerminal t => is_b64 t
  | GoPause m n => is_b64 m /\ is_b64 n
  | GoMerge b e => is_b64 b /\ is_b64 e
  | GoPauseActive _ | GoDisablePause => True
  end.

(** Settings after a history of setter calls, in binary64. *)
Definition settings64 (ops : list gop) : gset := fold_left (gset_run_r b64) ops gset_new.

(** Times of the foot prints are doubles. *)
Definition times_b64 (l : list step) : Prop := forall s, In s l -> is_b64 (st_time s).

(** Every swing phase has at least one sample. *)
Definition no_empty_swing (ph : phases) : Prop :=
  forall k a b, nth_error (ph_shift ph) (2 * k + 1) = Some a -> nth_error (ph_shift ph) (2 * k + 2) = Some b -> (a < b)%nat.
