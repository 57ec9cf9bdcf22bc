(** What the user of the navigation controller relies on, for any arithmetic. *)
From Coq Require Import Reals ZArith List Bool PeanoNat.
From Flocq Require Import Core IEEE754.BinarySingleNaN.
From Verif Require Import Prelude UnicycleFoot Ellipse Controllers ControlSpec Navigation Doubles DoublesSpec CtrlDoubles CtrlDoublesSpec.
Import ListNotations.
Open Scope R_scope.

Section Spec.
Variable N : Type.
(** The last usable path of a history: paths of fewer than two poses are not usable. *)
Definition used_path (ops : list (dop N)) : option (list (dpose N)) :=
  last_of (fun o => match o with DPath (a :: b :: r) => Some (Some (a :: b :: r)) | _ => None end) None ops.
Definition gives_path (o : dop N) : bool := match o with DPath _ => true | _ => false end.
Definition gives_step (o : dop N) : bool := match o with DStep _ => true | _ => false end.
Definition asks (o : dop N) : bool := match o with DQuery => true | _ => false end.
Definition asked (ops : list (dop N)) : nat := length (filter asks ops).
(** The calls together with what they returned: saturations were accepted, a pose was measured. *)
Definition limits_given (h : list (dop N * dout N)) : Prop := exists l a, In (DSat l a, DDone true) h.
Definition pose_given (ops : list (dop N)) : Prop := exists t p, In (DFeedback t p) ops.
(** All angles the user passes satisfy [P]. *)
Definition angles (P : N -> Prop) (ops : list (dop N)) : Prop :=
  (forall t p, In (DFeedback t p) ops -> P (d_th p)) /\ (forall l p, In (DPath l) ops -> In p l -> P (d_th p)).
(** The setters of the base controller. *)
Fixpoint setters (ops : list (dop N)) : list (setter N) :=
  match ops with
  | [] => []
  | DSat l a :: r => sSat l a :: setters r
  | DTurn g :: r => sTurn g :: setters r
  | DBack g :: r => sBack g :: setters r
  | DSide g :: r => sSide g :: setters r
  | _ :: r => setters r
  end.
Variable A : arith N.
(** The controller works on the last pose and expects to be there within one time step. *)
Definition arrived (n : dnav N) : Prop :=
  dn_fresh n = Some false /\ (exists eta, dn_eta n = Some eta /\ a_lt A eta (dn_dt n) = true) /\ S (dn_idx n) = length (dn_path n).
Definition stands (a : dout N) : Prop := match a with DCmd c => c = MkDC (c0 A) (c0 A) (c0 A) | DDone _ => True end.
End Spec.
Arguments used_path {N}. Arguments gives_path {N}. Arguments gives_step {N}. Arguments asks {N}. Arguments asked {N}. Arguments limits_given {N}.
Arguments pose_given {N}. Arguments angles {N}. Arguments setters {N}. Arguments arrived {N}. Arguments stands {N}.

(** The angular speed in use: that of the last accepted saturations, with the turn gain of that moment.  The history
    is read backwards. *)
Fixpoint speed_rev (h : list (dop f64 * dout f64)) : option f64 :=
  match h with
  | [] => None
  | (DSat _ a, DDone true) :: r => Some (Babs (fdiv a (fadd f1 (turn64 (setters (rev (map fst r)))))))
  | _ :: r => speed_rev r
  end.
Definition turning64 (h : list (dop f64 * dout f64)) : option f64 := speed_rev (rev h).
(** Equal, 0 and -0 being equal and NaN not being equal to itself. *)
Definition eq64 (x y : f64) : Prop := Beqb x y = true.
(** The difference of angles, less one turn if it is outside [-pi, pi]. *)
Definition wrapped64 (x : f64) : f64 :=
  if Bltb fpi x then fsub x (fmul (fmake 2 0) fpi) else if Bltb x (fopp fpi) then fadd x (fmul (fmake 2 0) fpi) else x.

(** The same calls on the exact model of Navigation.v. *)
Definition pose_of (u : ustate) : dpose R := MkDP (vx (u_pos u)) (vy (u_pos u)) (u_angle u).
Definition cmd_of (c : cmd) : dcmd R := MkDC (c_fwd c) (c_ang c) (c_lat c).
Definition op_of (o : navop) : dop R :=
  match o with
  | NFeedback t p a => DFeedback t (MkDP (vx p) (vy p) a)
  | NQuery => DQuery
  | NPath p => DPath (map pose_of p)
  | NBase (BSat l a) => DSat l a
  | NBase (BTurn g) => DTurn g
  | NBase (BBack g) => DBack g
  | NBase (BSide g) => DSide g
  | NStep d => DStep d
  | NUntil t => DUntil t
  | NConst c => DConst (cmd_of c)
  end.
Definition out_of (a : navout) : dout R := match a with ODone b => DDone b | OCmd c => DCmd (cmd_of c) end.
Definition exact_maths : maths R := MkMaths R Ropp sqrt (fun x => x ^ 2) cos sin atan2.
