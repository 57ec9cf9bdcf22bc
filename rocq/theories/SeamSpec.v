(** Specification vocabulary: continuing a walk with newly generated trajectories. *)
From Coq Require Import String Reals List Bool.
From Verif Require Import Prelude FootPrint GenPhases GenSpec FeetTraj FeetSpec CoMHeight DCM Generator GeneratorSpec.
Import ListNotations.
Open Scope R_scope.

(** Initial time, sampling time and outcome of the sort of a generation call. *)
Definition generation_at (c : call) : option (R * R * list tstep) :=
  match c with
  | KFrom _ _ i d s | KGen _ i d _ s | KRe _ _ i d _ _ _ _ s => Some (i, d, s)
  | KCfg _ => None
  end.

(** Both feet are on the ground at instant [m]. *)
Definition double_support (ph : phases) (m : nat) : Prop :=
  forall b, exists p, nth_error (foot_phases ph b) m = Some p /\ (p = SwitchIn \/ p = SwitchOut).

(** Every foot that the trajectories have put down by instant [m] was to land by the time of that instant. *)
Definition punctual (init dT : R) (out : genout) (m : nat) : Prop :=
  forall k t, nth_error (planned (go_ord out)) k = Some t -> (bnd (go_ph out) (2 * k + 2) <= m)%nat -> st_time (t_step t) <= init + INR m * dT.

(** Both plans put the first step of each foot where the one step of the given foot print is. *)
Definition keeps_places (plan : footprint -> footprint -> R -> R -> footprint * footprint * bool) : Prop :=
  forall l r i t l2 r2 a b, fp_steps l = [a] -> fp_steps r = [b] -> 0 <= st_time a -> 0 <= st_time b -> plan l r i t = (l2, r2, true) ->
  exists a' b', hd_error (fp_steps l2) = Some a' /\ hd_error (fp_steps r2) = Some b'
  /\ st_pos a' = st_pos a /\ st_angle a' = st_angle a /\ st_pos b' = st_pos b /\ st_angle b' = st_angle b.

(** A generation for [init] and [dT] succeeded and led to the state [g] with the phases [out]; then setters were called, and
    then, at instant [m] of it, the walk was planned and generated anew without measured steps, which succeeded and led to
    the state [g'] with the phases [out'].  [g1]: the state in which reGenerate was called. *)
Record continued (spl : R -> R -> R -> R -> R -> R -> pva) (hspl : R -> R -> R -> R -> pva) (fspl : swing_splines)
  (g0 g g1 g' : gen) (out out' : genout) (init dT dT' : R) (m : nat) : Prop := MkCont {
  ct_before : exists cs os, session spl hspl fspl gen_new cs = Some (g0, os);
  ct_old : exists c srt, perform spl hspl fspl g0 c = (g, Done) /\ generation_at c = Some (init, dT, srt)
           /\ sort_result (fp_steps (gn_left g)) (fp_steps (gn_right g)) srt;
  ct_set : exists cs os, session spl hspl fspl g cs = Some (g1, os) /\ List.Forall (fun c => is_generation c = false) cs;
  ct_new : exists plan garbage tend mL mR srt, keeps_places plan
           /\ perform spl hspl fspl g1 (KRe plan garbage (init + INR m * dT) dT' tend mL mR CNone srt) = (g', Done)
           /\ sort_result (fp_steps (gn_left g')) (fp_steps (gn_right g')) srt;
  ct_out : gn_ph g = Have out;
  ct_out' : gn_ph g' = Have out';
  ct_full : no_empty_phase (go_ph out);
  ct_full' : no_empty_phase (go_ph out');
  ct_support : double_support (go_ph out) m;
  ct_punctual : punctual init dT out m
}.
