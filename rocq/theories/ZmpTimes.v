(** The times of src/ZMPTrajectoryGenerator.cpp over the arithmetic of Doubles.v: how many samples each loop writes, and
    at which time which spline is evaluated.  The values of the weights and of the local ZMPs, which decide nothing, are
    left out.  The complete computation in exact arithmetic is in ZMP.v. *)
From Coq Require Import String Reals ZArith List Bool.
From Flocq Require Import Core IEEE754.BinarySingleNaN.
From Verif Require Import Prelude Rounding GenPhases ZMP Doubles DoublesGen DoublesExec.
Import ListNotations.

(** [std::round] and [std::ceil] with a floating point result. *)
Record whole (N : Type) : Type := MkW { w_round : N -> N; w_ceil : N -> N }.
Arguments MkW {N}. Arguments w_round {N}. Arguments w_ceil {N}.
Definition whole_reals : whole R := MkW (fun x => IZR (Rround x)) (fun x => IZR (Zceil x)).
(** Both leave NaN and the infinities as they are. *)
Definition fwhole (f : R -> Z) (x : f64) : f64 := if fin x then fmake (f (f2r x)) 0 else x.
Definition whole_ieee : whole f64 := MkW (fwhole Rround) (fwhole Zceil).
(** The same, executable, to run examples. *)
Definition fwhole_x (f : Z -> Z -> Z) (x : f64) : f64 :=
  match x with
  | B754_zero _ => fmake 0 0
  | B754_finite s m e _ => fmake (f (cond_Zopp s (Zpos m)) e) 0
  | _ => x
  end.
Definition whole_exec : whole f64 := MkW (fwhole_x zround) (fwhole_x zceil).

Section Times.
Variable N : Type.
Variable A : arith N.
Variable W : whole N.
(** pauseActive, maxSwitchTime, nominalSwitchTime, endSwitchTime. *)
Variable pause : bool.
Variables mx nom fin : N.
Variable dT : N.
(** stepPhase. *)
Variable ph : list phase.

(** A written sample: [None] for a constant, otherwise the time at which a spline is evaluated and its duration. *)
Definition zsample : Type := option (N * N).
Definition z_dur (n : nat) : N := a_mul A (a_size A n) dT.
Definition z_evals (T : N) (n : nat) : list zsample := map (fun k => Some (a_mul A (a_size A k) dT, T)) (seq 0 n).

(** [while (instant < bound)] with a floating point [bound], from [instant = i] on: number of iterations.  [room]: free
    entries from [i] on; writing past them is undefined. *)
Fixpoint z_count (room i : nat) (bound : N) : res nat :=
  if a_lt A (a_size A i) bound
  then match room with
       | O => UB
       | S room => do n <- z_count room (S i) bound; Ok (S n)
       end
  else Ok 0%nat.
Definition z_while (i : nat) (bound : N) : res nat := z_count (length ph - i) i bound.

(** iDynTree::CubicSpline::setData (external) refuses coinciding times. *)
Definition z_spline (T : N) : res unit := if a_eq A T (c0 A) then Fail else Ok tt.
(** src/ZMPTrajectoryGenerator.cpp:104 and 303; [std::max(a, b)] is [a < b ? b : a]. *)
Definition z_pauses (n : nat) : bool :=
  pause && a_lt A (if a_lt A mx (a_add A fin nom) then a_add A fin nom else mx) (z_dur n).

(** src/ZMPTrajectoryGenerator.cpp:84-192; see [weight_piece]. *)
Definition z_weight_piece (first last : bool) (p : phase) (i e : nat) : res (list zsample) :=
  match p with
  | Stance | Swing => Ok (repeat None (e - i))
  | _ =>
      do n <- sub_size e i;
      do pre <- (if z_pauses n then
          do _ <- z_spline fin;
          do k <- z_while i (a_add A (a_size A i) (w_round W (a_div A fin dT)));
          do k' <- z_while (i + k) (a_sub A (a_size A e) (w_round W (a_div A nom dT)));
          Ok (z_evals fin k ++ repeat None k')
        else Ok []);
      do _ <- (if last then Ok tt else match nth_error ph (i + length pre) with None => UB | Some _ => Ok tt end);
      do m <- sub_size n (length pre);
      do _ <- z_spline (z_dur m);
      Ok (pre ++ z_evals (z_dur m) m)
  end.
(** src/ZMPTrajectoryGenerator.cpp:59-196. *)
Definition z_weight (shift : list nat) : res (list zsample) := phase_loop z_weight_piece ph (tl shift) true 0.

(** src/ZMPTrajectoryGenerator.cpp:247-351; see [local_piece]. *)
Definition z_local_piece (first last : bool) (p : phase) (i e : nat) : res (list zsample) :=
  match p with
  | Swing | SwitchIn => Ok (repeat None (e - i))
  | Stance =>
      do n <- sub_size e i;
      do _ <- z_spline (z_dur n);
      Ok (z_evals (z_dur n) n)
  | SwitchOut =>
      if first then Ok (repeat None (e - i))
      else
        do n <- sub_size e i;
        let T := if z_pauses n then fin else if last then z_dur n else a_div A (z_dur n) (a_q A 2 1) in
        do _ <- z_spline T;
        do k <- z_while i (a_add A (a_size A i) (w_ceil W (a_div A T dT)));
        Ok (z_evals T k ++ repeat None (n - k))
  end.
(** src/ZMPTrajectoryGenerator.cpp:223-355. *)
Definition z_local (shift : list nat) : res (list zsample) := phase_loop z_local_piece ph (tl shift) true 0.
End Times.
Arguments zsample N : clear implicits.
Arguments z_dur {N}. Arguments z_evals {N}. Arguments z_count {N}. Arguments z_while {N}. Arguments z_spline {N}. Arguments z_pauses {N}.
Arguments z_weight_piece {N}. Arguments z_weight {N}. Arguments z_local_piece {N}. Arguments z_local {N}.

(** The steps used for the global ZMP, src/ZMPTrajectoryGenerator.cpp:396-434; see [global_zmp]. *)
Section Global.
Variable N : Type.
Variable A : arith N.
Variables init dT : N.
Variable ord : list (nstep N).
(** 399-405. *)
Fixpoint z_named (n : string) (i : nat) : res nat :=
  match nth_error ord i with
  | None => UB
  | Some s => if String.eqb (n_name s) n then Ok i
              else match i with O => UB | S i => z_named n i end
  end.
(** 419-421 and 428-430. *)
Fixpoint z_back (n : string) (t : N) (i : nat) : res nat :=
  match nth_error ord i with
  | None => UB
  | Some s => if negb (String.eqb (n_name s) n) || a_lt A t (n_time s)
              then match i with O => UB | S i => z_back n t i end
              else Ok i
  end.
(** 418-422 and 427-431. *)
Definition z_seek (n : string) (t : N) (i : nat) : res nat :=
  match nth_error ord i with
  | None => UB
  | Some s => if a_lt A t (n_time s) then z_back n t i else Ok i
  end.
(** 411-434, for the instants [n-1], ..., [0]: the indices of the two steps. *)
Fixpoint z_steps (nameL nameR : string) (n li ri : nat) (acc : list (nat * nat)) : res (list (nat * nat)) :=
  match n with
  | O => Ok acc
  | S i =>
      let t := a_add A (a_mul A (a_size A i) dT) init in
      do li' <- z_seek nameL t li;
      do ri' <- z_seek nameR t ri;
      z_steps nameL nameR i li' ri' ((li', ri') :: acc)
  end.
Definition z_global (nameL nameR : string) (n : nat) : res (list (nat * nat)) :=
  do top <- sub_size (length ord) 1;
  do li <- z_named nameL top;
  do ri <- z_named nameR top;
  z_steps nameL nameR n li ri [].
End Global.
Arguments z_named {N}. Arguments z_back {N}. Arguments z_seek {N}. Arguments z_steps {N}. Arguments z_global {N}.

(** What computeNewTrajectories writes. *)
Record zwritten (N : Type) : Type := MkZW { zw_weight : list (zsample N); zw_left : list (zsample N); zw_right : list (zsample N); zw_steps : list (nat * nat) }.
Arguments MkZW {N}. Arguments zw_weight {N}. Arguments zw_left {N}. Arguments zw_right {N}. Arguments zw_steps {N}.
(** src/ZMPTrajectoryGenerator.cpp:516-567, called at src/UnicycleGenerator.cpp:431-435 with the settings [s]: the
    weights of the left foot (those of the right foot are mirrored), the two local ZMPs, the steps used for the global
    ZMP.  [assert(leftName != rightName)] at 394 repeats a check of generate.  The result of setData at 384 is ignored. *)
Definition z_compute {N : Type} (A : arith N) (W : whole N) (s : field -> N) (pause : bool) (init dT : N)
  (nameL nameR : string) (ord : list (nstep N)) (P : phases) : res (zwritten N) :=
  let mx := a_mul A (s q_share) (s q_maxStep) in
  let nom := a_mul A (s q_share) (s q_nomStep) in
  let fin := s q_terminal in
  do w <- z_weight A W pause mx nom fin dT (ph_left P) (ph_shift P);
  do l <- z_local A W pause mx nom fin dT (ph_left P) (ph_shift P);
  do r <- z_local A W pause mx nom fin dT (ph_right P) (ph_shift P);
  match nth_error (ph_shift P) 1 with
  | None => UB
  | Some _ => do g <- z_global A init dT ord nameL nameR (length l); Ok (MkZW w l r g)
  end.
