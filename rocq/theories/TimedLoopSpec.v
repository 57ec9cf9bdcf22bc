(** Vocabulary for loops of generate and reGenerate in doubles. *)
From Coq Require Import String Reals ZArith List Bool Sorting.Permutation Sorting.Sorted.
From Flocq Require Import Core IEEE754.BinarySingleNaN.
From Verif Require Import Doubles DoublesGen DoublesSpec Prelude FootPrint Planner Generator TimedPlan TimedPlanSpec TimedLoop.
Import ListNotations.
Open Scope R_scope.

(** The exact model as an instance: a pose stored again gets the name of the foot print; pose of a measured step. *)
Definition again_in (lfp rfp : footprint) (b : bool) (p : pose) : pose := (fst p, fp_name (if b then lfp else rfp)).
Definition pose_of (s : step) : pose := (st_pos s, st_angle s, st_name s).
Definition edit_pose (m : step) (p : pose) : pose := pose_of (edit_step (join_step (p, 0)) m).
Definition print_of (fp : footprint) (l : tfoot R pose) : footprint := MkFP (map join_step l) (fp_name fp).

(** A function that sorts finite impact times as std::sort does. *)
Definition sorts (f : list (nstep f64) -> list (nstep f64)) : Prop := forall m, (forall a, In a m -> fin (n_time a) = true) ->
  Permutation (f m) m /\ StronglySorted (fun a b => Bltb (n_time b) (n_time a) = false) (f m).

(** [B] bounds all times; the periods fit: the search period is not below the spacing of the doubles at the end time, half
    a sampling period fits into the minimum step time and into the terminal switch time. *)
Definition fits (s : field -> f64) (init tend dT : f64) (B : R) : Prop :=
  fin init = true /\ fin tend = true /\ fin dT = true
  /\ resolves (f2r (s q_period)) (f2r tend)
  /\ bpow radix2 (-900) <= f2r dT <= B /\ B <= bpow radix2 50 * f2r dT /\ B <= bpow radix2 900
  /\ f2r tend + 3 * f2r (s q_nomT) <= B /\ f2r (s q_terminal) <= B
  /\ f2r dT / 2 + bpow radix2 (-48) * B <= f2r (s q_minT) /\ f2r dT <= 2 * f2r (s q_terminal).
Definition fit {P : Type} (s : field -> f64) (x : wargs f64 P) : Prop :=
  (exists B, fits s (x_init x) (x_tend x) (x_dT x) B) /\ sorts (x_sort x).

(** A call as the documentation intends it: finite arguments that fit the settings, generate only if no foot has more than
    one step, measured impact times that are numbers. *)
Definition sane_call {P : Type} (w : world f64 P) (k : wcall f64 P) : Prop :=
  match k with
  | WSet s => finite_args s
  | WStart _ | WClear => True
  | WGen x => fresh64 (wf_left w) (wf_right w) /\ fit (wf_set w) x
  | WRe x _ k _ _ mL mR =>
      fit (wf_set w) x /\ (corr_left k = true -> number mL) /\ (corr_right k = true -> number mR)
  end.
Fixpoint sane {P : Type} (nL nR : string) (w : world f64 P) (l : list (wcall f64 P)) : Prop :=
  match l with [] => True | k :: r => sane_call w k /\ sane nL nR (fst (w_call ieee nL nR w k)) r end.

(** The same call with other fuel. *)
Definition refuel {N P : Type} (n : nat) (k : wcall N P) : wcall N P :=
  let re x := MkWA (x_geo x) n (x_init x) (x_tend x) (x_dT x) (x_term x) (x_rfoot x) (x_pause x) (x_sort x) in
  match k with
  | WGen x => WGen (re x)
  | WRe x a b c d e f => WRe (re x) a b c d e f
  | _ => k
  end.
