(** Several threads using one generator, at the granularity of the critical sections of src/UnicycleGenerator.cpp. *)
From Coq Require Import String Reals List Bool.
From Verif Require Import Prelude FootPrint GenPhases FeetTraj ZMP CoMHeight DCM Generator GenSpec Threads.
Import ListNotations.
Open Scope R_scope.

(** A thread is between two calls, or inside generate or reGenerate after the scope of the first lock has ended and before
    generateFromFootPrints has locked again, src/UnicycleGenerator.cpp:467-468, 481-483, 495-497, 522-524, 543-545.
    [l], [r]: the foot prints its planning has produced, which the thread does not remember. *)
Inductive task : Type :=
| Idle (cs : list call)
| Window (l r : footprint) (init dT : R) (cs : list call).
(** For every generation: the thread, the foot prints planned by its call and the foot prints the trajectories are made from. *)
Record gsys : Type := MkGS { gs_gen : gen; gs_tasks : list task; gs_log : list (nat * (footprint * footprint) * (footprint * footprint)) }.

Section GenThreads.
Variable spl : R -> R -> R -> R -> R -> R -> pva.
Variable hspl : R -> R -> R -> R -> pva.
Variable fspl : swing_splines.
(** One critical section of thread [i].  Reading the two pointers and locking in generateFromFootPrints are taken as one
    action (a thread that gets in between makes matters worse).  The order found by the sort is that of the foot prints in
    use.  Setters are one action whether they lock or not. *)
Inductive gmove (i : nat) : gsys -> gsys -> Prop :=
| gm_cfg : forall g ts lg e cs, nth_error ts i = Some (Idle (KCfg e :: cs)) ->
    gmove i (MkGS g ts lg) (MkGS (gn_call g e) (set_nth i (Idle cs) ts) lg)
| gm_from : forall g ts lg l r init dT s cs srt, nth_error ts i = Some (Idle (KFrom l r init dT s :: cs)) ->
    sort_result (fp_steps l) (fp_steps r) srt ->
    gmove i (MkGS g ts lg) (MkGS (fst (generate_from spl hspl fspl g l r init dT srt)) (set_nth i (Idle cs) ts) lg)
| gm_plan : forall g ts lg plan init dT tend s cs l r ok, nth_error ts i = Some (Idle (KGen plan init dT tend s :: cs)) ->
    plan (gn_left g) (gn_right g) init tend = (l, r, ok) ->
    gmove i (MkGS g ts lg) (MkGS (with_fps l r g) (set_nth i (if ok then Window l r init dT cs else Idle cs) ts) lg)
| gm_replan : forall g ts lg plan gb init dT tend mL mR k s cs g' ok,
    nth_error ts i = Some (Idle (KRe plan gb init dT tend mL mR k s :: cs)) ->
    replan plan gb g init tend mL mR k = (g', ok) ->
    gmove i (MkGS g ts lg)
          (MkGS g' (set_nth i (if ok then Window (gn_left g') (gn_right g') init dT cs else Idle cs) ts) lg)
| gm_window : forall g ts lg l r init dT cs srt, nth_error ts i = Some (Window l r init dT cs) ->
    sort_result (fp_steps (gn_left g)) (fp_steps (gn_right g)) srt ->
    gmove i (MkGS g ts lg)
          (MkGS (fst (generate_from spl hspl fspl g (gn_left g) (gn_right g) init dT srt)) (set_nth i (Idle cs) ts)
                ((i, (l, r), (gn_left g, gn_right g)) :: lg)).
Inductive greach : gsys -> gsys -> Prop :=
| greach_refl : forall s, greach s s
| greach_step : forall s i s' s'', gmove i s s' -> greach s' s'' -> greach s s''.
End GenThreads.
Definition gstart (progs : list (list call)) : gsys := MkGS gen_new (map Idle progs) [].
