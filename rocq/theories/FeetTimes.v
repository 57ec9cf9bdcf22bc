(** The times of src/FeetMinimumJerkGenerator.cpp, src/FeetCubicSplineGenerator.cpp and
    src/CoMHeightTrajectoryGenerator.cpp over the arithmetic of Doubles.v: how many samples are written, and at which time
    each interpolation is evaluated.  Positions, angles and heights, which decide nothing, are left out.  The complete
    computations in exact arithmetic are in FeetTraj.v, FeetSpline.v and CoMHeight.v. *)
From Coq Require Import String Reals ZArith List Bool.
From Verif Require Import Prelude Rounding GenPhases FeetTraj Doubles DoublesGen ZmpTimes.
Import ListNotations.

Section Times.
Variable N : Type.
Variable A : arith N.
Variable W : whole N.
(** swingApex. *)
Variable apex : N.
Variable dT : N.
(** stepPhase. *)
Variable ph : list phase.
Notation dur := (z_dur A dT).

(** src/FeetMinimumJerkGenerator.cpp:49-55: the normalized time.  NaN passes. *)
Definition j_norm (t d : N) : res N :=
  let x := a_div A t d in
  if a_lt A x (c0 A) || a_lt A (c1 A) x then Fail else Ok x.
(** 134-165 and 191-223: the normalized times of x, y and yaw, and of z and pitch; see [swing_sample]. *)
Definition j_sample (n k k0 : nat) (half : N) : res (N * N) :=
  do x <- j_norm (a_sub A (dur k) (dur 0)) (dur n);
  do z <- j_norm (a_sub A (dur k) (dur k0)) half;
  Ok (x, z).
(** 140-196: [while (instant < bound)], from sample [k] of the swing on; [i] is its first instant. *)
Fixpoint j_up (n i : nat) (half bound : N) (room k : nat) : res (list (N * N)) :=
  if a_lt A (a_size A (i + k)) bound
  then do s <- j_sample n k 0 half;
       match room with
       | O => UB
       | S room => do r <- j_up n i half bound room (S k); Ok (s :: r)
       end
  else Ok [].
(** 126-257; see [swing_minjerk].  Writing past the phases is found by the loop over the phases below. *)
Definition j_swing (n i : nat) : res (list (N * N)) :=
  let bound := a_add A (w_round W (a_mul A (a_size A n) apex)) (a_size A i) in
  do up <- j_up n i (a_mul A (dur n) apex) bound (length ph - i) 0;
  do down <- collect (map (fun k => j_sample n k (length up) (a_mul A (dur n) (a_sub A (c1 A) apex))) (seq (length up) (n - length up)));
  Ok (up ++ down).
(** src/FeetCubicSplineGenerator.cpp:84-190; see [swing_spline]: evaluation times and durations. *)
Definition c_swing (n i : nat) : res (list (N * N)) :=
  let T := dur n in
  let T1 := a_mul A apex T in
  if a_eq A T (c0 A) || a_eq A T1 (c0 A) || a_eq A T1 T then Fail
  else Ok (map (fun k => (dur k, T)) (seq 0 n)).
(** src/CoMHeightTrajectoryGenerator.cpp:71-97; see [bump]. *)
Definition m_bump (n i : nat) : res (list (N * N)) :=
  let T := dur n in
  let T1 := a_div A T (a_q A 2 1) in
  if a_eq A T1 (c0 A) || a_eq A T1 T then Fail
  else Ok (map (fun k => (dur k, T)) (seq 0 n)).

(** src/FeetMinimumJerkGenerator.cpp:88-276 and src/FeetCubicSplineGenerator.cpp:80-204; see [feet_loop].  [st] is the
    number of steps from [footState] on.  A sample is [None] for a resting foot. *)
Fixpoint j_loop (swing : nat -> nat -> res (list (N * N))) (ends : list nat) (i st : nat) : res (list (option (N * N))) :=
  match ends with
  | [] => Ok []
  | e :: r =>
      match nth_error ph i, st with
      | None, _ => UB
      | _, O => UB
      | Some Swing, S st' =>
          do n <- sub_size e i;
          match st' with
          | O => Fail
          | S _ =>
              do out <- swing n i;
              if Nat.ltb (length ph) (i + length out) then UB
              else do rest <- j_loop swing r (i + length out) st'; Ok (map Some out ++ rest)
          end
      | Some _, S _ =>
          let out := repeat None (e - i) in
          if Nat.ltb (length ph) (i + length out) then UB
          else do rest <- j_loop swing r (i + length out) st; Ok (out ++ rest)
      end
  end.
(** src/CoMHeightTrajectoryGenerator.cpp:58-102; see [height_loop]. *)
Fixpoint m_loop (ends : list nat) (i : nat) : res (list (option (N * N))) :=
  match ends with
  | [] => Ok []
  | e :: r =>
      match nth_error ph i with
      | None => UB
      | Some SwitchIn | Some SwitchOut =>
          let out := repeat None (e - i) in
          if Nat.ltb (length ph) (i + length out) then UB
          else do rest <- m_loop r (i + length out); Ok (out ++ rest)
      | Some _ =>
          do n <- sub_size e i;
          do out <- m_bump n i;
          if Nat.ltb (length ph) (i + length out) then UB
          else do rest <- m_loop r (i + length out); Ok (map Some out ++ rest)
      end
  end.
End Times.
Arguments j_norm {N}. Arguments j_sample {N}. Arguments j_up {N}. Arguments j_swing {N}. Arguments c_swing {N}. Arguments m_bump {N}.
Arguments j_loop {N}. Arguments m_loop {N}.

(** src/FeetMinimumJerkGenerator.cpp:66-279, src/FeetCubicSplineGenerator.cpp:49-206 and
    src/CoMHeightTrajectoryGenerator.cpp:34-105 with the settings [s], for a foot with [st] steps. *)
Definition j_foot {N : Type} (A : arith N) (W : whole N) (s : field -> N) (dT : N) (shift : list nat) (ph : list phase) (st : nat) : res (list (option (N * N))) :=
  if below0 A (s q_height) then Fail else j_loop ph (j_swing A W (s q_apex) dT ph) (tl shift) 0 st.
Definition c_foot {N : Type} (A : arith N) (s : field -> N) (dT : N) (shift : list nat) (ph : list phase) (st : nat) : res (list (option (N * N))) :=
  if below0 A (s q_height) then Fail else j_loop ph (c_swing A (s q_apex) dT) (tl shift) 0 st.
Definition m_height {N : Type} (A : arith N) (s : field -> N) (dT : N) (shift : list nat) (ph : list phase) : res (list (option (N * N))) :=
  if below0 A (s q_com) then Fail else m_loop A dT ph (tl shift) 0.
