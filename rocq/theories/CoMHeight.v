(** Model of src/CoMHeightTrajectoryGenerator.cpp. *)
From Coq Require Import String Reals Lra Lia ZArith List Bool.
From Verif Require Import Prelude Rounding GenPhases FeetTraj.
Import ListNotations.
Open Scope R_scope.

(** Settings, src/CoMHeightTrajectoryGenerator.cpp:21 and 117-135. *)
Record hcfg : Type := MkH { h_nom : R; h_delta : R }.
Definition h_new : hcfg := MkH (-1) 0.
Definition h_set (c : hcfg) (nom delta : R) : hcfg * bool :=
  if Rltb nom 0 then (c, false)
  else if Rltb (nom + delta) 0 then (c, false)
  else (MkH nom delta, true).
Definition h_history (ops : list (R * R)) : hcfg := fold_left (fun c o => fst (h_set c (fst o) (snd o))) ops h_new.

Section Height.
(** iDynTree::CubicSpline (external): [spline T a m t] is the value at [t] of the spline through ([0], [a]),
    ([T/2], [m]), ([T], [a]) with zero end velocities.  [setData] refuses coinciding times. *)
Variable spline : R -> R -> R -> R -> pva.
Variable c : hcfg.
Variable dT : R.
Variable ph : list phase.

(** src/CoMHeightTrajectoryGenerator.cpp:71-97. *)
Definition bump (n : nat) : res (list pva) :=
  let T := INR n * dT in
  if Reqb T 0 then Fail
  else Ok (map (fun k => spline T (h_nom c) (h_nom c + h_delta c) (INR k * dT)) (seq 0 n)).

(** src/CoMHeightTrajectoryGenerator.cpp:58-102.  Reading or writing at or past the number of instants is undefined. *)
Fixpoint height_loop (ends : list nat) (inst : nat) : res (list pva) :=
  match ends with
  | [] => Ok []
  | e :: r =>
      match nth_error ph inst with
      | None => UB
      | Some SwitchIn | Some SwitchOut =>
          let out := repeat (still (h_nom c)) (e - inst) in
          if Nat.ltb (length ph) (inst + length out) then UB
          else do rest <- height_loop r (inst + length out); Ok (out ++ rest)
      | Some _ =>
          do n <- sub_size e inst;
          do out <- bump n;
          if Nat.ltb (length ph) (inst + length out) then UB
          else do rest <- height_loop r (inst + length out); Ok (out ++ rest)
      end
  end.

(** src/CoMHeightTrajectoryGenerator.cpp:34-105. *)
Definition height_compute (shift : list nat) : res (list pva) :=
  if Rltb (h_nom c) 0 then Fail else height_loop (tl shift) 0.
End Height.
