(** Specification vocabulary: the feet move in turns, and the results of the plug-ins fit together. *)
From Coq Require Import String Reals List Bool.
From Verif Require Import Prelude FootPrint UnicycleFoot PlannerSearch PlannerSpec GenPhases GenSpec FeetTraj FeetPose ZMP CoMHeight DCM Generator.
Import ListNotations.
Open Scope R_scope.

(** The steps [all] that follow the first step of each foot are made by the two feet in turns, each after the one before
    it and after both first steps; the foot that starts did not land last. *)
Definition in_turns (l r : list step) : Prop :=
  exists a b sw all, l = a :: fst (deal sw all) /\ r = b :: snd (deal sw all)
  /\ (if sw : bool then st_time a <= st_time b else st_time b <= st_time a)
  /\ (forall k x, nth_error all k = Some x -> st_time a < st_time x /\ st_time b < st_time x)
  /\ (forall j k x y, (j < k)%nat -> nth_error all j = Some x -> nth_error all k = Some y -> st_time x < st_time y).

(** Where the reported transform of a foot takes a point of the sole, seen from above. *)
Definition carried (x : sample) (p : vec2) : vec2 :=
  let q := V3 (vx p) (vy p) 0 in let t := report x in
  V2 (c1 (rp_pos t) + dot3 (r1 (rp_rot t)) q) (c2 (rp_pos t) + dot3 (r2 (rp_rot t)) q).

(** The feet trajectories of one of the two attached feet generators. *)
Definition feet_reported (g : gen) (TL TR : list sample) : Prop :=
  (gn_feet g <> None /\ gn_feetO g = Have (TL, TR)) \/ (gn_cub g <> None /\ gn_cubO g = Have (TL, TR)).

(** The ZMP in the world at instant [i] is what one gets from the other results: the ZMPs in the frames of the feet,
    carried by the feet and weighted. *)
Definition zmp_from_parts (TL TR : list sample) (o : zout) (i : nat) : Prop :=
  exists w a b x y u v, nth_error (zo_world o) i = Some w /\ nth_error (zo_wl o) i = Some a /\ nth_error (zo_wr o) i = Some b
  /\ nth_error (zo_zl o) i = Some x /\ nth_error (zo_zr o) i = Some y /\ nth_error TL i = Some u /\ nth_error TR i = Some v
  /\ w_p w = vadd (vscale (p_p a) (carried u (q_p x))) (vscale (p_p b) (carried v (q_p y))).

(** The ZMP of the DCM trajectory at instant [i] is the point [p] of the foot with trajectory [T]. *)
Definition dcm_zmp_on (T : list sample) (p : vec2) (o : dout) (i : nat) : Prop :=
  exists y u, nth_error (do_samples o) i = Some y /\ nth_error T i = Some u /\ ds_z y = Some (carried u p).

(** A generation call that moves no step that the feet are standing on. *)
Definition uncorrected (g : gen) (c : call) : Prop :=
  match c with
  | KGen _ _ _ _ _ => True
  | KRe _ garbage _ _ _ _ _ k _ => k = CNone /\ should_reset garbage g = false
  | _ => False
  end.
