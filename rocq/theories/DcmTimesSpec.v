(** Specification vocabulary for the times of the DCM generator in doubles. *)
From Coq Require Import String Reals ZArith List Bool Sorting.Sorted.
From Flocq Require Import Core IEEE754.BinarySingleNaN.
From Verif Require Import Prelude Rounding GenPhases Doubles DoublesGen DoublesSpec DcmTimes.
Import ListNotations.
Open Scope R_scope.

(** The time of sample [n]. *)
Definition instant (dT : f64) (n : nat) : f64 := fmul (fmake (Z.of_nat n) 0) dT.
(** The domains follow each other from [a] to [b] without gap or overlap. *)
Fixpoint tiles64 (a b : f64) (tr : list (kdom f64)) : Prop :=
  match tr with
  | [] => a = b
  | s :: r => fst s = a /\ le64 a (snd s) /\ tiles64 (snd s) b r
  end.
(** Each of the instants from [i] on is evaluated in a sub-trajectory of [tr] whose domain contains it. *)
Definition served (dT : f64) (tr : list (kdom f64)) (i : nat) (us : list (kdom f64)) : Prop :=
  forall k x, nth_error us k = Some x -> In x tr /\ le64 (fst x) (instant dT (i + k)) /\ le64 (instant dT (i + k)) (snd x).

(** The names that the generator knows. *)
Definition known (n : string) : Prop := n = "left"%string \/ n = "right"%string.
(** Boundaries of the phases of a walk over [k] steps, the two initial ones included: from 0 on, never decreasing. *)
Definition boundaries (k : nat) (shift : list nat) : Prop :=
  hd_error shift = Some 0%nat /\ StronglySorted le shift /\ length shift = (2 * k - 2)%nat.

(** Within 2^50 samples, a stillness of at least 2^-50 and at most 1, and durations below 2^900. *)
Record k_limits (om still dT : f64) (pause : bool) (mx nom es : f64) (n : nat) : Prop := MkKL {
  kl_om : lt64 fzero om;
  kl_still : fin still = true /\ bpow radix2 (-50) <= f2r still <= 1;
  kl_dT : fin dT = true /\ bpow radix2 (-900) <= f2r dT <= bpow radix2 900;
  kl_n : (Z.of_nat n <= 2 ^ 50)%Z;
  kl_mx : pause = true -> fin mx = true /\ 0 <= f2r mx <= bpow radix2 900;
  kl_nom : pause = true -> fin nom = true /\ 0 <= f2r nom <= bpow radix2 900;
  kl_es : pause = true -> fin es = true /\ 0 <= f2r es <= bpow radix2 900
}.
(** Every sub-trajectory lasts more than one sampling period; at most 2^30 samples. *)
Record k_long (still dT : f64) (pause : bool) (mx nom es : f64) (shift : list nat) : Prop := MkKG {
  kg_n : (Z.of_nat (last shift 0%nat) <= 2 ^ 30)%Z;
  kg_shift : StronglySorted lt shift;
  kg_pause : pause = true -> 1001 / 1000 * f2r dT <= f2r es /\ 1001 / 1000 * f2r dT <= f2r nom
                             /\ f2r es + f2r nom + 1001 / 1000 * f2r dT <= f2r mx;
  kg_last : (2 < length shift)%nat -> forall n1 n2, nth_error shift (length shift - 2) = Some n1 -> nth_error shift (length shift - 1) = Some n2 ->
            1001 / 1000 <= INR (n2 - n1) * (1 - f2r still)
}.
