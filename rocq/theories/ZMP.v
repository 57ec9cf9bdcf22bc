(** Model of src/ZMPTrajectoryGenerator.cpp. *)
From Coq Require Import String Reals Lra Lia ZArith List Bool.
From Verif Require Import Prelude Rounding FootPrint GenPhases FeetTraj.
Import ListNotations.
Open Scope R_scope.

(** The loop over the phase boundaries shared by src/ZMPTrajectoryGenerator.cpp:80-193 and 245-352.  [ends]: the
    boundaries without the first one, [inst]: [instant].  [piece first last p inst e] yields the samples written for the
    phase [p] that starts at [inst] and ends at [e]; [first] is [phase == 1], [last] is [phase == phaseShift.size() - 1].
    Reading or writing at or past the number of instants is undefined. *)
Section Loop.
Context {A : Type}.
Variable piece : bool -> bool -> phase -> nat -> nat -> res (list A).
Variable ph : list phase.
Fixpoint phase_loop (ends : list nat) (first : bool) (inst : nat) : res (list A) :=
  match ends with
  | [] => Ok []
  | e :: r =>
      match nth_error ph inst with
      | None => UB
      | Some p =>
          do out <- piece first (match r with [] => true | _ => false end) p inst e;
          if Nat.ltb (length ph) (inst + length out) then UB
          else do rest <- phase_loop r false (inst + length out); Ok (out ++ rest)
      end
  end.
End Loop.

(** Timings kept by the generator, src/ZMPTrajectoryGenerator.cpp:516-520. *)
Record ztimes : Type := MkZT { z_end : R; z_nom : R; z_max : R; z_pause : bool }.
(** src/ZMPTrajectoryGenerator.cpp:516-520 with the arguments of src/UnicycleGenerator.cpp:431-435. *)
Definition ztimes_of (g : gset) : ztimes :=
  MkZT (g_endSwitch g) (g_switchPct g * g_nomStep g) (g_switchPct g * g_maxStep g) (g_pause g).

(** A planar point with first and second derivative. *)
Record pva2 : Type := MkP2 { q_x : pva; q_y : pva }.
Definition q_p (q : pva2) : vec2 := V2 (p_p (q_x q)) (p_p (q_y q)).
Definition q_v (q : pva2) : vec2 := V2 (p_v (q_x q)) (p_v (q_y q)).
Definition q_a (q : pva2) : vec2 := V2 (p_a (q_x q)) (p_a (q_y q)).
Definition still2 (p : vec2) : pva2 := MkP2 (still (vx p)) (still (vy p)).

Section Zmp.
(** iDynTree::CubicSpline (external) with two points: [spl T x0 v0 a0 x1 t] is the value at [t] of the spline from [x0]
    at time [0] to [x1] at time [T], with initial conditions [v0], [a0] and final conditions [0], [0].  [setData]
    refuses coinciding times. *)
Variable spl : R -> R -> R -> R -> R -> R -> pva.
Variable Z : ztimes.
Variable dT : R.
Variable ph : list phase.

(** Set up a spline, evaluate it at the first [n] instants. *)
Definition spline_pts (T : R) (x0 : pva) (x1 : R) (n : nat) : res (list pva) :=
  if Reqb T 0 then Fail
  else Ok (map (fun k => spl T (p_p x0) (p_v x0) (p_a x0) x1 (INR k * dT)) (seq 0 n)).

(** src/ZMPTrajectoryGenerator.cpp:104 and 303: does a switch of [n] instants pause in the middle? *)
Definition pauses (n : nat) : bool := z_pause Z && Rgtb (INR n * dT) (Rmax (z_max Z) (z_end Z + z_nom Z)).

(** src/ZMPTrajectoryGenerator.cpp:84-192, computeFootWeightPortion for one phase; [w0]: initial state. *)
Definition weight_piece (w0 : pva) (first last : bool) (p : phase) (inst e : nat) : res (list pva) :=
  match p with
  | Stance | Swing =>
      collect (map (fun i => match nth_error ph i with
                             | None => UB
                             | Some Stance => Ok (still 1)
                             | Some _ => Ok (still 0)
                             end) (seq inst (e - inst)))
  | _ =>
      do n <- sub_size e inst;
      let x0 := if first then w0 else match p with SwitchIn => still 0 | _ => still 1 end in
      do (pre, x0') <- (if pauses n then
          do out1 <- spline_pts (z_end Z) x0 (1 / 2) (nround (z_end Z / dT));
          Ok (out1 ++ repeat (still (1 / 2)) (n - nround (z_nom Z / dT) - length out1), still (1 / 2))
        else Ok ([], x0));
      do x1 <- (if last then Ok (1 / 2) else match nth_error ph (inst + length pre) with
                                            | None => UB
                                            | Some SwitchIn => Ok 1
                                            | Some _ => Ok 0
                                            end);
      do m <- sub_size n (length pre);
      do out <- spline_pts (INR m * dT) x0' x1 m;
      Ok (pre ++ out)
  end.

(** src/ZMPTrajectoryGenerator.cpp:59-196, the weights. *)
Definition foot_weight (w0 : pva) (shift : list nat) : res (list pva) := phase_loop (weight_piece w0) ph (tl shift) true 0.

(** src/ZMPTrajectoryGenerator.cpp:247-351, computeLocalZMP for one phase; [zs]: stance ZMP, [zw]: ZMP at the begin of
    a switch. *)
Definition local_piece (zs zw : vec2) (first last : bool) (p : phase) (inst e : nat) : res (list pva2) :=
  match p with
  | Swing | SwitchIn => Ok (repeat (still2 zs) (e - inst))
  | Stance =>
      do n <- sub_size e inst;
      do xs <- spline_pts (INR n * dT) (still (vx zs)) (vx zw) n;
      do ys <- spline_pts (INR n * dT) (still (vy zs)) (vy zw) n;
      Ok (map (fun c => MkP2 (fst c) (snd c)) (combine xs ys))
  | SwitchOut =>
      if first then Ok (repeat (still2 zs) (e - inst))
      else
        do n <- sub_size e inst;
        let T := if pauses n then z_end Z else if last then INR n * dT else INR n * dT / 2 in
        do c <- size_ceil (T / dT);
        do xs <- spline_pts T (still (vx zw)) (vx zs) c;
        do ys <- spline_pts T (still (vy zw)) (vy zs) c;
        Ok (map (fun c => MkP2 (fst c) (snd c)) (combine xs ys) ++ repeat (still2 zs) (n - c))
  end.

(** src/ZMPTrajectoryGenerator.cpp:223-355. *)
Definition local_zmp (zs zw : vec2) (shift : list nat) : res (list pva2) := phase_loop (local_piece zs zw) ph (tl shift) true 0.
End Zmp.

(** src/ZMPTrajectoryGenerator.cpp:89-96 (repeated at 124-131, 141-148, 179-186): the state at the current merge point is
    stored.  [m]: mergePoint, [st]: initStates, [None] for an entry not written during this computation.  The code does
    this while writing the weights; the model does it afterwards with the same instants.  An empty list of merge points
    is undefined. *)
Fixpoint upd {A : Type} (l : list A) (i : nat) (x : A) : list A :=
  match l, i with
  | [], _ => []
  | _ :: r, O => x :: r
  | a :: r, S i => a :: upd r i x
  end.
Fixpoint record_states (mp : list nat) (inst : nat) (out : list pva) (m : nat) (st : list (option pva)) : res (list (option pva)) :=
  match out with
  | [] => Ok st
  | x :: r =>
      match nth_error mp m with
      | None => UB
      | Some p =>
          if Nat.eqb inst p
          then record_states mp (S inst) r (if Nat.ltb m (length mp - 1) then S m else m) (upd st m (Some x))
          else record_states mp (S inst) r m st
      end
  end.
Definition init_states (mp : list nat) (out : list pva) : res (list (option pva)) :=
  record_states mp 0 out 0 (repeat None (length mp)).

(** src/ZMPTrajectoryGenerator.cpp:199-220. *)
Definition mirror (w : pva) : pva := MkPva (1 - p_p w) (- p_v w) (- p_a w).

(** src/ZMPTrajectoryGenerator.cpp:357-363: [Transform * Position] (iDynTree) for a planar transform. *)
Definition tf (s : step) (p : vec2) : vec2 := vadd (st_pos s) (rot (st_angle s) p).

(** src/ZMPTrajectoryGenerator.cpp:399-405: from [i] backwards to a step named [n].  Passing the first step is undefined
    (unsigned wrap-around, then an access past the end). *)
Fixpoint last_named (ord : list step) (n : string) (i : nat) : res nat :=
  match nth_error ord i with
  | None => UB
  | Some s => if String.eqb (st_name s) n then Ok i
              else match i with O => UB | S i => last_named ord n i end
  end.
(** src/ZMPTrajectoryGenerator.cpp:419-421 and 428-430. *)
Fixpoint seek_back (ord : list step) (n : string) (t : R) (i : nat) : res nat :=
  match nth_error ord i with
  | None => UB
  | Some s => if negb (String.eqb (st_name s) n) || Rgtb (st_time s) t
              then match i with O => UB | S i => seek_back ord n t i end
              else Ok i
  end.
(** src/ZMPTrajectoryGenerator.cpp:418-422. *)
Definition seek (ord : list step) (n : string) (t : R) (i : nat) : res nat :=
  match nth_error ord i with
  | None => UB
  | Some s => if Rgtb (st_time s) t then seek_back ord n t i else Ok i
  end.

(** World ZMP at one instant. *)
Record world : Type := MkWorld { w_p : vec2; w_v : vec2; w_a : vec2 }.

(** src/ZMPTrajectoryGenerator.cpp:437-501.  [first]: [instant < phaseShift[1]]; [c]: the correction. *)
Definition world_sample (first : bool) (c : pva) (oldL oldR sL sR : step) (wl wr : pva) (zl zr : pva2) : world :=
  let lw := tf sL (q_p zl) in let rw := tf sR (q_p zr) in
  let lv := tf sL (q_v zl) in let rv := tf sR (q_v zr) in
  let la := tf sL (q_a zl) in let ra := tf sR (q_a zr) in
  if first then
    let dL := vsub (tf oldL (q_p zl)) lw in let dR := vsub (tf oldR (q_p zr)) rw in
    let bl := vadd lw (vscale (p_p c) dL) in let br := vadd rw (vscale (p_p c) dR) in
    MkWorld
      (vadd (vscale (p_p wl) bl) (vscale (p_p wr) br))
      (vadd (vadd (vadd (vscale (p_v wl) bl) (vscale (p_p wl * p_v c) dL)) (vscale (p_v wr) br)) (vscale (p_p wr * p_v c) dR))
      (vadd (vadd (vadd (vadd (vadd (vscale (p_a wl) bl) (vscale (2 * p_v wl * p_v c) dL)) (vscale (p_p wl * p_a c) dL))
        (vscale (p_a wr) br)) (vscale (2 * p_v wr * p_v c) dR)) (vscale (p_p wr * p_a c) dR))
  else
    MkWorld
      (vadd (vscale (p_p wl) lw) (vscale (p_p wr) rw))
      (vadd (vadd (vadd (vscale (p_v wl) lw) (vscale (p_p wl) lv)) (vscale (p_v wr) rw)) (vscale (p_p wr) rv))
      (vadd (vadd (vadd (vadd (vadd (vscale (p_a wl) lw) (vscale (2 * p_v wl) lv)) (vscale (p_p wl) la))
        (vscale (p_a wr) rw)) (vscale (2 * p_v wr) rv)) (vscale (p_p wr) ra)).

Section Global.
Variable spl : R -> R -> R -> R -> R -> R -> pva.
Variables initT dT : R.
Variable s1 : nat.                    (* phaseShift[1] *)
Variables oldL oldR : step.           (* previousLeft, previousRight *)
Variable ord : list step.
Variables nameL nameR : string.
Variables wl wr : list pva.
Variables zl zr : list pva2.

(** src/ZMPTrajectoryGenerator.cpp:377-383 and 440-446. *)
Definition correction (i : nat) : pva :=
  if Nat.ltb i s1 then spl (INR s1 * dT) 1 0 0 0 (INR i * dT) else still 0.

(** src/ZMPTrajectoryGenerator.cpp:411-502: the instants [n-1], ..., [0], with the two current indices. *)
Fixpoint global_loop (n : nat) (li ri : nat) (acc : list world) : res (list world) :=
  match n with
  | O => Ok acc
  | S i =>
      let t := INR i * dT + initT in
      do li' <- seek ord nameL t li;
      do ri' <- seek ord nameR t ri;
      match nth_error ord li', nth_error ord ri', nth_error wl i, nth_error wr i, nth_error zl i, nth_error zr i with
      | Some sL, Some sR, Some a, Some b, Some x, Some y =>
          global_loop i li' ri' (world_sample (Nat.ltb i s1) (correction i) oldL oldR sL sR a b x y :: acc)
      | _, _, _, _, _, _ => UB
      end
  end.

(** src/ZMPTrajectoryGenerator.cpp:365-503. *)
Definition global_zmp : res (list world) :=
  do top <- sub_size (length ord) 1;
  do li <- last_named ord nameL top;
  do ri <- last_named ord nameR top;
  global_loop (length zl) li ri [].
End Global.

(** State of the generator that the user can set: ZMP offsets, and the one-shot initial weight and previous steps
    (the value is kept with a flag, src/ZMPTrajectoryGenerator.cpp:588-625). *)
Record zcfg : Type := MkZ {
  z_stL : vec2; z_stR : vec2; z_swL : vec2; z_swR : vec2;
  z_init : option pva; z_prev : option (step * step)
}.
(** src/ZMPTrajectoryGenerator.cpp:574-582. *)
Definition z_new : zcfg := MkZ vzero vzero vzero vzero None None.
(** src/ZMPTrajectoryGenerator.cpp:588-625. *)
Inductive zop : Type :=
| ZInit (w : pva) | ZPrev (l r : step) | ZStance (l r : vec2) | ZSwitch (l r : vec2).
Definition z_call (c : zcfg) (o : zop) : zcfg :=
  match o with
  | ZInit w => MkZ (z_stL c) (z_stR c) (z_swL c) (z_swR c) (Some w) (z_prev c)
  | ZPrev l r => MkZ (z_stL c) (z_stR c) (z_swL c) (z_swR c) (z_init c) (Some (l, r))
  | ZStance l r => MkZ l r (z_swL c) (z_swR c) (z_init c) (z_prev c)
  | ZSwitch l r => MkZ (z_stL c) (z_stR c) l r (z_init c) (z_prev c)
  end.

(** Everything the getters return. *)
Record zout : Type := MkZO {
  zo_wl : list pva; zo_wr : list pva; zo_zl : list pva2; zo_zr : list pva2; zo_world : list world;
  zo_states : list (option pva)
}.

(** src/ZMPTrajectoryGenerator.cpp:509-572, computeNewTrajectories.  The second component of the result is the state
    afterwards: the one-shot values are consumed (568-569).  When it fails nothing is consumed; the output vectors may
    already be partly overwritten, which is not modelled. *)
Definition zmp_compute (spl : R -> R -> R -> R -> R -> R -> pva) (c : zcfg) (Z : ztimes) (initT dT : R)
  (left right : footprint) (ord : list step) (P : phases) : res (zout * zcfg) :=
  let w0 := match z_init c with Some w => w | None => still (1 / 2) end in
  match fp_steps left, fp_steps right with
  | l0 :: _, r0 :: _ =>
      let (oldL, oldR) := match z_prev c with Some o => o | None => (l0, r0) end in
      do wl <- foot_weight spl Z dT (ph_left P) w0 (ph_shift P);
      do st <- init_states (ph_merge P) wl;
      let wr := map mirror wl in
      do zl <- local_zmp spl Z dT (ph_left P) (z_stL c) (z_swL c) (ph_shift P);
      do zr <- local_zmp spl Z dT (ph_right P) (z_stR c) (z_swR c) (ph_shift P);
      match nth_error (ph_shift P) 1 with
      | None => UB
      | Some s1 =>
          do W <- global_zmp spl initT dT s1 oldL oldR ord (fp_name left) (fp_name right) wl wr zl zr;
          Ok (MkZO wl wr zl zr W st, MkZ (z_stL c) (z_stR c) (z_swL c) (z_swR c) None None)
      end
  | _, _ => UB
  end.
