(** Walks whose phases do not depend on rounding. *)
From Coq Require Import String Reals ZArith List Bool.
From Flocq Require Import Core.
From Verif Require Import Prelude FootPrint GenPhases GenSpec.
Import ListNotations.
Open Scope R_scope.

(** The duration [x] is more than [d] away from every odd multiple of half a sampling period, where std::round jumps. *)
Definition off_ties (dT d x : R) : Prop := forall z : Z, d < Rabs (x - (IZR z + / 2) * dT).
(** Duration of the double support of a step of length [x]; [apart]: it is the first step and the feet did not land together. *)
Definition support (g : gset) (apart : bool) (x : R) : R :=
  let p := g_switchPct g in
  if apart then p / (2 - p) * x
  else if g_pause g && Rltb (g_maxStep g) x then x - (1 - p) * g_nomStep g
  else p * x.
(** Impact times [l] after [clock], a sampling instant: each step is longer or shorter than 0 and than the longest step
    without a pause by more than [d], and its length, double support and merge points are more than [d] off the ties. *)
Fixpoint settled (g : gset) (dT d : R) (apart first : bool) (clock : R) (l : list R) : Prop :=
  match l with
  | [] => True
  | t :: r =>
      let x := t - clock in let s := support g (first && apart) x in
      d < Rabs x /\ off_ties dT d x /\ (g_pause g = true -> d < Rabs (x - g_maxStep g)) /\ off_ties dT d s
      /\ (first = false -> off_ties dT d (s * (1 - g_mrBegin g)) /\ off_ties dT d (s * (1 - g_mrEnd g)))
      /\ settled g dT d apart false (clock + IZR (Zfloor (x / dT + / 2)) * dT) r
  end.
(** Impact times of the steps to be made. *)
Definition impacts (ord : list tstep) : list R := map (fun t => st_time (t_step t)) (planned ord).
