(** Specification vocabulary for the navigation controller. *)
From Coq Require Import Reals List Bool PeanoNat.
From Verif Require Import Prelude UnicycleFoot Controllers ControlSpec Navigation.
Import ListNotations.
Open Scope R_scope.

(** The calls made together with what they returned. *)
Definition answered (ops : list navop) (outs : list navout) (o : navop) (a : navout) : Prop := In (o, a) (combine ops outs).

(** The last usable path of a history: paths of fewer than two poses are not usable. *)
Definition current_path (ops : list navop) : option (list ustate) :=
  last_of (fun o => match o with NPath (a :: b :: r) => Some (Some (a :: b :: r)) | _ => None end) None ops.

Definition is_path (o : navop) : bool := match o with NPath _ => true | _ => false end.
Definition is_step (o : navop) : bool := match o with NStep _ => true | _ => false end.
Definition is_query (o : navop) : bool := match o with NQuery => true | _ => false end.
Definition queries (ops : list navop) : nat := length (filter is_query ops).

(** Setters of the base controller in a history. *)
Fixpoint base_ops (ops : list navop) : list baseop :=
  match ops with
  | [] => []
  | NBase o :: r => o :: base_ops r
  | _ :: r => base_ops r
  end.

(** Velocity limits (forward, lateral, angular) in force: those of the last accepted saturations, with the gains
    of that moment. The history is read backwards. *)
Fixpoint limits_rev (rops : list navop) : option (R * R * R) :=
  match rops with
  | [] => None
  | NBase (BSat lin ang) :: r =>
      let side := set_side (base_ops (rev r)) in
      let turn := set_turn (base_ops (rev r)) in
      if Rle_dec 0 lin then if Rle_dec 0 ang then
        if Rle_dec (1 / 1000000) lin then
          if Rle_dec (1 / 1000000) (lin * side) then
            if Rle_dec (1 / 1000000) (ang / (1 + turn)) then Some (lin, lin * side, ang / (1 + turn))
            else limits_rev r
          else limits_rev r
        else limits_rev r
      else limits_rev r else limits_rev r
  | _ :: r => limits_rev r
  end.
Definition limits_of (ops : list navop) : option (R * R * R) := limits_rev (rev ops).

(** The controller has nothing left to do: it works on the last pose and expects to be there within one time step. *)
Definition at_goal (n : nav) : Prop :=
  n_fresh n = Some false /\ (exists eta, n_eta n = Some eta /\ eta < n_dt n) /\ S (n_idx n) = length (n_path n).

Definition zero (a : navout) : Prop := match a with OCmd c => c = MkCmd 0 0 0 | ODone _ => True end.

(** Equal headings. *)
Definition same_heading (a b : R) : Prop := exists k : Z, a = b + 2 * IZR k * PI.

(** Velocity in the world of a unicycle with heading [a] under command [c]. *)
Definition world_velocity (a : R) (c : cmd) : vec2 := rot a (V2 (c_fwd c) (c_lat c)).
