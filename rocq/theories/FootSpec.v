(** Specification vocabulary for poses, rigid motions and step limits. *)
From Coq Require Import Reals List.
From Verif Require Import Prelude FootPrint UnicycleFoot Ellipse Optimization.
Import ListNotations.
Open Scope R_scope.

(** Euclidean distance of two points, heading and left directions, scalar product. *)
Definition dist2d (p q : vec2) : R := sqrt ((vx p - vx q) ^ 2 + (vy p - vy q) ^ 2).
Definition heading (a : R) : vec2 := V2 (cos a) (sin a).
Definition leftward (a : R) : vec2 := V2 (- sin a) (cos a).
Definition vdot (p q : vec2) : R := vx p * vx q + vy p * vy q.

(** A planar rigid motion: rotation by [rm_phi], then translation. *)
Record rigid : Type := MkRigid { rm_phi : R; rm_tr : vec2 }.
Definition mv_pt (g : rigid) (p : vec2) : vec2 :=
  V2 (cos (rm_phi g) * vx p - sin (rm_phi g) * vy p + vx (rm_tr g))
     (sin (rm_phi g) * vx p + cos (rm_phi g) * vy p + vy (rm_tr g)).
Definition mv_step (g : rigid) (s : step) : step :=
  MkStep (mv_pt g (st_pos s)) (st_angle s + rm_phi g) (st_time s) (st_name s).
Definition mv_state (g : rigid) (u : ustate) : ustate :=
  MkU (mv_pt g (u_pos u)) (u_angle u + rm_phi g).
Definition mv_foot (g : rigid) (f : foot) : foot :=
  MkFoot (MkFP (map (mv_step g) (fp_steps (ft_fp f))) (fp_name (ft_fp f)))
         (ft_distSet f) (ft_dist f) (ft_yaw f) (ft_minStep f) (ft_minAngle f).
(** The moved ellipse: image of the same circle. *)
Definition mv_ell (g : rigid) (e : ell) : ell :=
  let c := cos (rm_phi g) in let s := sin (rm_phi g) in
  let C := e_C e in let D := e_Ci e in
  MkEll (M2 (c * m00 C - s * m10 C) (c * m01 C - s * m11 C)
            (s * m00 C + c * m10 C) (s * m01 C + c * m11 C))
        (M2 (m00 D * c - m01 D * s) (m00 D * s + m01 D * c)
            (m10 D * c - m11 D * s) (m10 D * s + m11 D * c))
        (mv_pt g (e_d e)) (e_a e) (e_b e) (e_th e + rm_phi g) (e_set e).
Definition mv_prob (g : rigid) (p : problem) : problem :=
  MkProb (p_maxLen p) (p_maxBack p) (p_minWidth p) (p_maxAngle p) (mv_ell g (p_ell p))
         (p_posW p) (p_timeW p).

(** The documented limits for a candidate step.
    [swingLeft]: the left foot moves; [stance]: last step of the foot that stays; [np]: new position of
    the moving foot; [ua]: unicycle heading at landing; [turn]: heading change with respect to the
    stance foot.  A limit that is not set does not restrict. *)
Definition admissible (p : problem) (swingLeft : bool) (stance : step) (np : vec2) (ua turn : R)
  : Prop :=
  (forall L, p_maxLen p = Some L -> dist2d np (st_pos stance) < L)
  /\ (forall w, p_minWidth p = Some w ->
        w < (if swingLeft then vdot (vsub np (st_pos stance)) (leftward (st_angle stance))
             else vdot (vsub (st_pos stance) np) (leftward ua)))
  /\ (forall a, p_maxAngle p = Some a -> Rabs turn < a)
  /\ (ell_inside (p_ell p) np = true)
  /\ (forall b, p_maxBack p = Some b -> 0 < b /\
        (vdot (vsub np (st_pos stance)) (heading (st_angle stance)) < 0 ->
         dist2d np (st_pos stance) < b)).

(** Setter histories of the problem. *)
Inductive probop : Type :=
| PoLen (v : R) | PoBack (v : R) | PoWidth (v : R) | PoAngle (v : R) | PoEll (e : ell)
| PoWeights (pw tw : R).

Definition prob_run (p : problem) (o : probop) : problem :=
  match o with
  | PoLen v => fst (prob_setMaxLen v p)
  | PoBack v => fst (prob_setMaxBack v p)
  | PoWidth v => fst (prob_setMinWidth v p)
  | PoAngle v => fst (prob_setMaxAngle v p)
  | PoEll e => prob_setEll e p
  | PoWeights a b => fst (prob_setWeights a b p)
  end.

(** The last value offered by [sel] that is not negative, scanning from the most recent call. *)
Fixpoint latest (sel : probop -> option R) (recent_first : list probop) : option R :=
  match recent_first with
  | [] => None
  | o :: r => match sel o with
              | Some v => if Rle_dec 0 v then Some v else latest sel r
              | None => latest sel r
              end
  end.
Definition selLen o := match o with PoLen v => Some v | _ => None end.
Definition selBack o := match o with PoBack v => Some v | _ => None end.
Definition selWidth o := match o with PoWidth v => Some v | _ => None end.
Definition selAngle o := match o with PoAngle v => Some v | _ => None end.
