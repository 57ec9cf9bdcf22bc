(** Room for every phase, in terms of the settings. *)
From Coq Require Import String Reals ZArith List Bool Sorting.Sorted.
From Flocq Require Import Core.
From Verif Require Import Prelude GenPhases Generator Doubles DoublesGen DoublesSpec TimedPlan TimedPlanSpec TimedLoop TimedLoopSpec
  DcmTimes DcmTimesSpec ZmpTimes ZmpTimesSpec FeetTimes FeetTimesSpec.
Import ListNotations.
Open Scope R_scope.

(** Steps of length [x] leave at least [d] to both of their parts, the double and the single support; so do steps of the
    nominal duration when pauses are active. *)
Definition room64 (s : field -> f64) (pause : bool) (d x : R) : Prop :=
  let p := f2r (s q_share) in
  d <= p * x /\ d <= (1 - p) * x
  /\ (pause = true -> d <= p * f2r (s q_nomStep) /\ d <= (1 - p) * f2r (s q_nomStep)).

(** The settings of the DCM generator leave a sampling period (and 0.1 percent) to each of its parts. *)
Definition dcm_room (s : field -> f64) (pause : bool) (dT : R) : Prop :=
  let d := 1001 / 1000 * dT in
  d <= (f2r (s q_terminal) - dT) * (1 - f2r (s q_still))
  /\ (pause = true -> d <= f2r (s q_terminal) /\ d <= f2r (fmul (s q_share) (s q_nomStep))
      /\ f2r (s q_terminal) + f2r (fmul (s q_share) (s q_nomStep)) + d <= f2r (fmul (s q_share) (s q_maxStep))).

(** The settings leave room for every generator: [B] bounds all times, a foot has landed at most [delta] before the walk begins. *)
Definition ample (s : field -> f64) (pause : bool) (tend dT : f64) (B delta : R) : Prop :=
  fin dT = true /\ bpow radix2 (-900) <= f2r dT <= B /\ B <= bpow radix2 26 * f2r dT /\ B <= bpow radix2 900
  /\ f2r tend + 3 * f2r (s q_nomT) <= B /\ f2r (s q_terminal) <= B /\ f2r dT <= 2 * f2r (s q_terminal) /\ f2r (s q_maxStep) <= bpow radix2 900
  /\ f2r dT / 2 <= delta /\ room64 s pause (f2r dT + bpow radix2 (-46) * B) (f2r (s q_minT) - delta) /\ dcm_room s pause (f2r dT)
  /\ s q_height <> fm1 /\ bpow radix2 (-100) <= f2r (s q_apex) /\ s q_com <> fm1
  /\ lt64 fzero (s q_omega) /\ fin (s q_still) = true /\ bpow radix2 (-50) <= f2r (s q_still) <= 1.

(** All generators complete the walk with the ordered steps [ord] and the phases [ph]: no phase is empty; both feet with
    either interpolation, the height of the CoM and the DCM have one value per sample, inside the domains of their
    splines; so has the ZMP, unless it overruns its buffers as in C94. *)
Definition all_complete (s : field -> f64) (pause : bool) (init dT : f64) (L Rt : nfoot f64) (ord : list (nstep f64)) (ph : phases) : Prop :=
  StronglySorted lt (ph_shift ph) /\
  let N := length (ph_left ph) in let nl := length (nf_steps L) in let nr := length (nf_steps Rt) in
  (exists a b, j_foot ieee whole_ieee s dT (ph_shift ph) (ph_left ph) nl = Ok a /\ j_foot ieee whole_ieee s dT (ph_shift ph) (ph_right ph) nr = Ok b
        /\ length a = N /\ length b = N /\ unit_times a /\ unit_times b)
  /\ (exists a b, c_foot ieee s dT (ph_shift ph) (ph_left ph) nl = Ok a /\ c_foot ieee s dT (ph_shift ph) (ph_right ph) nr = Ok b
        /\ length a = N /\ length b = N /\ evaluated_inside a /\ evaluated_inside b)
  /\ (exists h, m_height ieee s dT (ph_shift ph) (ph_left ph) = Ok h /\ length h = N /\ evaluated_inside h)
  /\ (exists tr us, k_compute ieee s pause dT (map (n_name (N:=f64)) ord) ph = Ok (tr, us)
        /\ tiles64 fzero (instant dT N) tr /\ length us = N /\ served dT tr 0 us)
  /\ exists m, a_round ieee (fdiv (s q_terminal) dT) = Ok m
     /\ let run := z_compute ieee whole_ieee s pause init dT "left" "right" ord ph in
        (run = UB <-> (2 < length ord)%nat /\ ~ paused dT pause (fmul (s q_share) (s q_maxStep)) (fmul (s q_share) (s q_nomStep)) (s q_terminal) m /\ excess dT m)
        /\ (run = UB \/ exists w, run = Ok w /\ length (zw_weight w) = N /\ length (zw_left w) = N /\ length (zw_right w) = N /\ length (zw_steps w) = N
             /\ evaluated_inside (zw_weight w) /\ evaluated_inside (zw_left w) /\ evaluated_inside (zw_right w)).

(** [z] is the step on which foot [f] stands at [init]: the last one in the list that has landed. *)
Definition stands_on {P : Type} (f : list (P * f64)) (init : f64) (z : P * f64) : Prop :=
  exists a b, f = a ++ z :: b /\ le64 (snd z) init /\ List.Forall (fun y => lt64 init (snd y)) b.
(** A call that plans begins at most [delta] after a foot has landed: no foot print yet, or one of the feet stands on a
    step that is not older, and is not corrected to an older impact time. *)
Definition recent_call {P : Type} (w : world f64 P) (k : wcall f64 P) (delta : R) : Prop :=
  match k with
  | WGen x => recent (wf_left w) (wf_right w) (x_init x) delta
  | WRe x _ k _ _ mL mR => 0 <= delta /\ exists z, f2r (x_init x) - delta <= f2r (snd z) /\
      ((stands_on (wf_left w) (x_init x) z /\ (corr_left k = true -> f2r (x_init x) - delta <= f2r mL))
       \/ (stands_on (wf_right w) (x_init x) z /\ (corr_right k = true -> f2r (x_init x) - delta <= f2r mR)))
  | _ => False
  end.
(** The arguments of a call that plans. *)
Definition planning {P : Type} (k : wcall f64 P) : option (wargs f64 P) := match k with WGen x | WRe x _ _ _ _ _ _ => Some x | _ => None end.
