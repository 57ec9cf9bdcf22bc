(** What the user of the integrated poses relies on, for doubles. *)
From Coq Require Import Reals ZArith List Bool.
From Flocq Require Import Core IEEE754.BinarySingleNaN.
From Verif Require Import Prelude Doubles DoublesSpec CtrlDoubles UniDoubles UniDoublesSpec PersonDoubles PersonDoublesSpec IntDoubles.
Import ListNotations.
Open Scope R_scope.

(** The grid of the external integrator, which samples [n] steps of length [h] (the last one shorter) from [t0] to [T]: usual sizes, and the
    steps reach [T] up to rounding. *)
Record grid (t0 T h : f64) (n : nat) : Prop := MkGrid {
  g_fin : held (bpow radix2 400) t0 /\ held (bpow radix2 400) T /\ held (bpow radix2 100) h;
  g_step : bpow radix2 (-100) <= f2r h;
  g_many : INR n <= bpow radix2 40;
  g_reach : f2r T - f2r t0 <= INR n * f2r h * (1 + bpow radix2 (-45)) }.
(** A finite time between [t0] and [T]. *)
Definition during (t0 T t : f64) : Prop := fin t = true /\ f2r t0 <= f2r t <= f2r T.
(** Sample [j] of the grid is the one nearest to [t], up to rounding. *)
Definition nearest (t0 h t : f64) (j : nat) : Prop :=
  Rabs (f2r t - (f2r t0 + INR j * f2r h)) <= f2r h / 2 + bpow radix2 (-51) * (f2r t - f2r t0) + bpow radix2 (-800) * f2r h.
(** Times and poses of an integration: each pose at the start of its step, the last one at [T]. *)
Definition solution (T : f64) (steps : list (f64 * f64)) (tr : list (dpose f64)) : list (f64 * dpose f64) := combine (map fst steps ++ [T]) tr.
