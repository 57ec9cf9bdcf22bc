(** Specification vocabulary for the times of the ZMP generator in doubles. *)
From Coq Require Import String Reals ZArith List Bool Sorting.Sorted.
From Flocq Require Import Core IEEE754.BinarySingleNaN.
From Verif Require Import Prelude Rounding GenPhases Doubles DoublesGen DoublesSpec DcmTimesSpec.
Import ListNotations.
Open Scope R_scope.

(** Within 2^50 samples; durations below 2^900, and a positive final switch, when pauses are active. *)
Record z_limits (dT : f64) (pause : bool) (mx nom es : f64) (n : nat) : Prop := MkZL {
  zl_dT : fin dT = true /\ bpow radix2 (-900) <= f2r dT <= bpow radix2 900;
  zl_n : (Z.of_nat n <= 2 ^ 50)%Z;
  zl_mx : pause = true -> fin mx = true;
  zl_nom : pause = true -> fin nom = true /\ 0 <= f2r nom <= bpow radix2 900;
  zl_es : pause = true -> fin es = true /\ 0 < f2r es <= bpow radix2 900
}.
(** The shift instants cut the phases of a foot into non-empty pieces. *)
Definition cuts (ph : list phase) (shift : list nat) : Prop :=
  hd_error shift = Some 0%nat /\ StronglySorted lt shift /\ (2 <= length shift)%nat /\ last shift 0%nat = length ph.
(** The duration of [n] samples, divided by the sampling time, comes out larger than [n]. *)
Definition excess (dT : f64) (n : nat) : Prop := lt64 (fmake (Z.of_nat n) 0) (fdiv (instant dT n) dT).
(** Every evaluation of a spline lies within its domain. *)
Definition evaluated_inside (out : list (option (f64 * f64))) : Prop :=
  forall t T, In (Some (t, T)) out -> le64 fzero t /\ le64 t T.
(** The index of the last step of a foot that has landed at [t]. *)
Definition last_landed (ord : list (nstep f64)) (name : string) (t : f64) (i : nat) : Prop :=
  (exists s, nth_error ord i = Some s /\ n_name s = name /\ le64 (n_time s) t)
  /\ forall j s, nth_error ord j = Some s -> n_name s = name -> le64 (n_time s) t -> (j <= i)%nat.
(** A double support of [n] samples that is long enough for a pause. *)
Definition paused (dT : f64) (pause : bool) (mx nom es : f64) (n : nat) : Prop :=
  pause = true /\ lt64 mx (instant dT n) /\ lt64 (fadd es nom) (instant dT n).
(** The begin of the last phase. *)
Definition last_begin (shift : list nat) : nat := nth (length shift - 2) shift 0%nat.
