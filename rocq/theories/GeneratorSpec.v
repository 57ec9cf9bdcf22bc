(** Specification vocabulary for the whole generator. *)
From Coq Require Import String Reals ZArith List Bool.
From Verif Require Import Prelude FootPrint GenPhases FeetTraj ZMP CoMHeight DCM Generator.
Import ListNotations.
Open Scope R_scope.

(** The same heading up to full turns. *)
Definition same_heading (a b : R) : Prop := exists k : Z, a = b + 2 * IZR k * PI.

(** The present step: the last stored one that has landed by [t]. *)
Definition present (fp : footprint) (t : R) (s : step) : Prop :=
  exists pre post, fp_steps fp = pre ++ s :: post /\ st_time s <= t /\ List.Forall (fun x => t < st_time x) post.

(** The foot print with one step, made from [p] without a measurement (position and heading of [p]) ... *)
Definition kept (p : step) (fp : footprint) (t : R) (q : footprint) : Prop :=
  q = MkFP [MkStep (st_pos p) (st_angle p) t (fp_name fp)] (fp_name fp).
(** ... and corrected by the measurement [m]: measured position, measured heading, as close as possible to the heading
    of [p]. *)
Definition corrected (p m : step) (fp : footprint) (t : R) (q : footprint) : Prop :=
  exists a, q = MkFP [MkStep (st_pos m) a t (fp_name fp)] (fp_name fp)
  /\ same_heading a (st_angle m) /\ Rabs (a - st_angle p) <= PI.

(** Impact times of the steps that replace [pl] and [pr]; [cl], [cr]: is the foot corrected?  [reset]: the robot stands
    still, both feet get the later of the two times.  Otherwise a measurement that claims to be from the future makes
    both times of the foot prints stay. *)
Definition new_times (reset cl cr : bool) (init : R) (pl pr mL mR : step) (tl tr : R) : Prop :=
  let late := cl = true /\ init < st_time mL \/ cr = true /\ init < st_time mR in
  if reset then tl = Rmax (st_time pl) (st_time pr) /\ tr = Rmax (st_time pl) (st_time pr)
  else (late -> tl = st_time pl /\ tr = st_time pr)
       /\ (~ late -> tl = (if cl then st_time mL else st_time pl) /\ tr = (if cr then st_time mR else st_time pr)).

(** The foot prints that the planner gets: each holds one step, made from the present one. *)
Definition handed (g : gen) (init : R) (mL mR : step) (k : correction) (reset : bool) (pl pr : step) (l1 r1 : footprint) : Prop :=
  exists tl tr, new_times reset (corr_left k) (corr_right k) init pl pr mL mR tl tr
  /\ (if corr_left k then corrected pl mL (gn_left g) tl l1 else kept pl (gn_left g) tl l1)
  /\ (if corr_right k then corrected pr mR (gn_right g) tr r1 else kept pr (gn_right g) tr r1).

(** The state given for the next generation: set, used by a generation that returns true, kept by one that returns false. *)
Fixpoint pending_dcm (x : option (vec2 * vec2)) (tr : list (call * outcome)) : option (vec2 * vec2) :=
  match tr with
  | [] => x
  | (KCfg (GDcm (DInit p v)), _) :: r => pending_dcm (Some (p, v)) r
  | (KCfg _, _) :: r => pending_dcm x r
  | (_, Done) :: r => pending_dcm None r
  | _ :: r => pending_dcm x r
  end.
Fixpoint pending_weight (x : option pva) (tr : list (call * outcome)) : option pva :=
  match tr with
  | [] => x
  | (KCfg (GZmp (ZInit w)), _) :: r => pending_weight (Some w) r
  | (KCfg _, _) :: r => pending_weight x r
  | (_, Done) :: r => pending_weight None r
  | _ :: r => pending_weight x r
  end.
(** The velocity of the initial DCM state that was set last. *)
Fixpoint last_velocity (x : option vec2) (cs : list call) : option vec2 :=
  match cs with
  | [] => x
  | KCfg (GDcm (DInit _ v)) :: r => last_velocity (Some v) r
  | _ :: r => last_velocity x r
  end.
Definition is_generation (c : call) : bool := match c with KCfg _ => false | _ => true end.

(** All results that are present have one entry for each of [n] instants. *)
Definition all_of_length (n : nat) (g : gen) : Prop :=
  (exists out, gn_ph g = Have out /\ length (ph_left (go_ph out)) = n /\ length (ph_right (go_ph out)) = n
     /\ length (go_lContact out) = n /\ length (go_rContact out) = n /\ length (go_leftFixed out) = n)
  /\ (gn_feet g <> None -> exists l r, gn_feetO g = Have (l, r) /\ length l = n /\ length r = n)
  /\ (gn_cub g <> None -> exists l r, gn_cubO g = Have (l, r) /\ length l = n /\ length r = n)
  /\ (gn_zmp g <> None -> exists o, gn_zmpO g = Have o /\ length (zo_wl o) = n /\ length (zo_wr o) = n /\ length (zo_zl o) = n
        /\ length (zo_zr o) = n /\ length (zo_world o) = n)
  /\ (gn_dcm g <> None -> exists o, gn_dcmO g = Have o /\ length (do_samples o) = n /\ length (do_weights o) = n)
  /\ (gn_com g <> None -> exists o, gn_comO g = Have o /\ length o = n).
