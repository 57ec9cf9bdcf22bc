(** The times of src/DCMTrajectoryGeneratorHelper.cpp over the arithmetic of Doubles.v.  The construction of the
    sub-trajectories and their evaluation branch on times and foot names only; DCM positions and velocities, which
    decide nothing, are left out.  The complete computation in exact arithmetic is in DCM.v. *)
From Coq Require Import String ZArith List Bool.
From Verif Require Import Prelude Rounding GenPhases Doubles.
Import ListNotations.

Section Times.
Variable N : Type.
Variable A : arith N.
(** m_omega, m_stillnessPercentage, m_dT. *)
Variables om still dT : N.
(** m_pauseActive, m_maxDoubleSupportDuration, m_nominalDoubleSupportDuration, m_endSwitchTime. *)
Variable pause : bool.
Variables mx nom fin : N.

(** A sub-trajectory: its domain. *)
Definition kdom : Type := (N * N)%type.
(** src/DCMTrajectoryGeneratorHelper.cpp:26-36: the assertions of the constructor. *)
Definition k_mk (a b : N) : res kdom := if a_le A a b && a_lt A (c0 A) om then Ok (a, b) else UB.
(** m_dT / 2. *)
Definition k_half : N := a_div A dT (a_q A 2 1).
(** src/DCMTrajectoryGeneratorHelper.cpp:46-57, timeBelongsToDomain. *)
Definition k_in (d : kdom) (t : N) : bool :=
  a_le A (a_sub A (fst d) k_half) t && a_le A t (a_add A (snd d) k_half).
Definition k_check (d : kdom) (t : N) : res unit := if k_in d t then Ok tt else Fail.

(** src/DCMTrajectoryGeneratorHelper.cpp:783-805: the name must be known. *)
Definition k_zmp (n : string) : res unit := if String.eqb n "left" || String.eqb n "right" then Ok tt else Fail.

(** src/DCMTrajectoryGeneratorHelper.cpp:902, 911: beginning of the final stillness. *)
Definition k_still (t1 t2 : N) : N := a_add A t1 (a_mul A (a_sub A t2 t1) (a_sub A (a_q A 1 1) still)).
(** src/DCMTrajectoryGeneratorHelper.cpp:889-953, addLastStep. *)
Definition k_last (t0 t1 t2 : N) : res (list kdom) :=
  do s <- k_mk t0 t1;
  do _ <- k_check s t1;
  do f <- k_mk (k_still t1 t2) t2;
  do d <- k_mk t1 (k_still t1 t2);
  Ok [s; d; f].

(** src/DCMTrajectoryGeneratorHelper.cpp:1002-1003, 1097-1098; [std::max(a, b)] is [a < b ? b : a]. *)
Definition k_pauses (T : N) : bool :=
  pause && a_lt A (if a_lt A mx (a_add A fin nom) then a_add A fin nom else mx) T.
(** src/DCMTrajectoryGeneratorHelper.cpp:1002-1052, 1097-1176: a double support between [t1] and [t2]. *)
Definition k_between (t1 t2 : N) : res (list kdom) :=
  if k_pauses (a_sub A t2 t1) then
    do x3 <- k_mk (a_sub A t2 nom) t2;
    do x2 <- k_mk (a_add A t1 fin) (a_sub A t2 nom);
    do x1 <- k_mk t1 (a_add A t1 fin);
    Ok [x1; x2; x3]
  else do x <- k_mk t1 t2; Ok [x].

(** src/DCMTrajectoryGeneratorHelper.cpp:955-1059, addNewStep; the head of [tr] is m_trajectory.back(). *)
Definition k_new (t0 t1 : N) (tr : list kdom) : res (list kdom) :=
  do s <- k_mk t0 t1;
  match tr with
  | [] => UB
  | nx :: _ =>
      do _ <- k_check s t1;
      do _ <- k_check nx (fst nx);
      do d <- k_between t1 (fst nx);
      Ok (s :: d ++ tr)
  end.
(** src/DCMTrajectoryGeneratorHelper.cpp:1061-1180, addFirstDoubleSupportPhase, from time 0; [n]: name of the first
    swing foot. *)
Definition k_first (n : string) (tr : list kdom) : res (list kdom) :=
  match tr with
  | [] => UB
  | nx :: _ =>
      do _ <- k_check nx (fst nx);
      do _ <- (if k_pauses (a_sub A (fst nx) (c0 A)) then k_zmp n else Ok tt);
      do d <- k_between (c0 A) (fst nx);
      Ok (d ++ tr)
  end.

(** Names of the ordered steps, and phaseShift. *)
Variable ord : list string.
Variable shift : list nat.
Definition k_at (k : nat) : res N := match nth_error shift k with Some n => Ok (a_mul A (a_size A n) dT) | None => UB end.
Definition k_name (k : nat) : res string := match nth_error ord k with Some s => Ok s | None => UB end.

(** src/DCMTrajectoryGeneratorHelper.cpp:1256-1290. *)
Fixpoint k_loop (pi oi : nat) (tr : list kdom) : res (list kdom) :=
  match pi with
  | S (S k) =>
      do t1 <- k_at pi;
      do t0 <- k_at (S k);
      do _ <- (match tr with [] => UB | _ => Ok tt end);
      do n <- k_name oi;
      do _ <- k_zmp n;
      do oi' <- sub_size oi 1;
      do tr' <- k_new t0 t1 tr;
      k_loop k oi' tr'
  | _ => Ok tr
  end.

(** src/DCMTrajectoryGeneratorHelper.cpp:1182-1368; see [build]. *)
Definition k_build (lph : list phase) : res (list kdom) :=
  if Nat.ltb (length ord) 2 then Fail
  else if Nat.ltb 2 (length ord) then
    do pi <- sub_size (length shift) 1;
    do oi <- sub_size (length ord) 1;
    do t2 <- k_at pi;
    do pi <- sub_size pi 1;
    do t1 <- k_at pi;
    do pi <- sub_size pi 1;
    do t0 <- k_at pi;
    do pi <- sub_size pi 1;
    do s1 <- k_name oi;
    do _ <- k_zmp s1;
    do oi <- sub_size oi 1;
    do s2 <- k_name oi;
    do _ <- k_zmp s2;
    do oi <- sub_size oi 1;
    do tr <- k_last t0 t1 t2;
    do tr <- k_loop pi oi tr;
    do o0 <- k_name 0;
    do o1 <- k_name 1;
    match lph with
    | [] => UB
    | l0 :: _ =>
        let name := match l0 with SwitchIn => "right"%string | _ => "left"%string end in
        k_first (if String.eqb o0 name then o0 else o1) tr
    end
  else
    do t0 <- k_at 0;
    do o0 <- k_name 0;
    do _ <- k_zmp o0;
    do o1 <- k_name 1;
    do _ <- k_zmp o1;
    do k <- sub_size (length shift) 1;
    do t1 <- k_at k;
    do x <- k_mk t0 t1;
    Ok [x].

(** src/DCMTrajectoryGeneratorHelper.cpp:1388-1415: for each of [n] instants from [i] on, the sub-trajectory used. *)
Fixpoint k_eval (n i : nat) (tr : list kdom) : res (list kdom) :=
  match n with
  | O => Ok []
  | S n =>
      match tr with
      | [] => UB
      | s :: r =>
          let time := a_mul A (a_size A i) dT in
          let tr' := if a_lt A (snd s) time then r else tr in
          match tr' with
          | [] => UB
          | x :: _ =>
              do _ <- k_check x time;
              do rest <- k_eval n (S i) tr';
              Ok (x :: rest)
          end
      end
  end.
(** src/DCMTrajectoryGeneratorHelper.cpp:1371-1417. *)
Definition k_evaluate (tr : list kdom) : res (list kdom) :=
  match shift with
  | [] => UB
  | a :: _ => do n <- sub_size (last shift 0%nat) a; k_eval n a tr
  end.
(** Construction and evaluation. *)
Definition k_generate (lph : list phase) : res (list kdom * list kdom) :=
  do tr <- k_build lph; do us <- k_evaluate tr; Ok (tr, us).
End Times.
Arguments kdom N : clear implicits.
Arguments k_mk {N}. Arguments k_half {N}. Arguments k_in {N}. Arguments k_check {N}. Arguments k_still {N}.
Arguments k_last {N}. Arguments k_pauses {N}. Arguments k_between {N}. Arguments k_new {N}. Arguments k_first {N}.
Arguments k_at {N}. Arguments k_loop {N}. Arguments k_build {N}. Arguments k_eval {N}. Arguments k_evaluate {N}. Arguments k_generate {N}.

(** src/DCMTrajectoryGeneratorHelper.cpp:1445-1485, setPauseConditions: is the call accepted? *)
Definition k_pause_ok {N : Type} (A : arith N) (pause : bool) (mx nom fin : N) : bool :=
  negb (below0 A mx) && negb (pause && (atmost0 A nom || below0 A fin)).
(** src/DCMTrajectoryGenerator.cpp:41-117, computeNewTrajectories, called at src/UnicycleGenerator.cpp:440-446 with the
    settings [s] of the generator; the check of the initial time repeats that of generate, and the feet weights
    (src/DCMTrajectoryGeneratorHelper.cpp:807-887) are not part of this model. *)
Definition k_compute {N : Type} (A : arith N) (s : field -> N) (pause : bool) (dT : N) (ord : list string) (P : phases)
  : res (list (kdom N) * list (kdom N)) :=
  let mx := a_mul A (s q_share) (s q_maxStep) in
  let nom := a_mul A (s q_share) (s q_nomStep) in
  if atmost0 A dT then Fail
  else if negb (k_pause_ok A pause mx nom (s q_terminal)) then Fail
  else k_generate A (s q_omega) (s q_still) dT pause mx nom (s q_terminal) ord (ph_shift P) (ph_left P).
