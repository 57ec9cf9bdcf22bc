(** Model of src/DCMTrajectoryGeneratorHelper.cpp and src/DCMTrajectoryGenerator.cpp. *)
From Coq Require Import String Reals Lra Lia ZArith List Bool.
From Verif Require Import Prelude Rounding FootPrint GenPhases FeetTraj ZMP.
Import ListNotations.
Open Scope R_scope.

(** ** Sub-trajectories *)
(** DCMTrajectoryPoint, include/DCMTrajectoryGeneratorHelper.h. *)
Record dpoint : Type := MkD { d_t : R; d_p : vec2; d_v : vec2 }.

(** src/DCMTrajectoryGeneratorHelper.cpp:70-90, SingleSupportTrajectory. *)
Record ssd : Type := MkSS { ss_t0 : R; ss_t1 : R; ss_om : R; ss_zmp : vec2; ss_bt : R; ss_bp : vec2 }.
(** src/DCMTrajectoryGeneratorHelper.cpp:168-205. *)
Definition ss_pos (s : ssd) (t : R) : vec2 :=
  vadd (ss_zmp s) (vscale (exp (ss_om s * (t - ss_bt s))) (vsub (ss_bp s) (ss_zmp s))).
Definition ss_vel (s : ssd) (t : R) : vec2 :=
  vscale (ss_om s * exp (ss_om s * (t - ss_bt s))) (vsub (ss_bp s) (ss_zmp s)).

(** Coefficients of a cubic, highest degree first. *)
Record coef4 : Type := MkC4 { k3 : R; k2 : R; k1 : R; k0 : R }.
(** src/DCMTrajectoryGeneratorHelper.cpp:424-454, polinominalInterpolation of DoubleSupportTrajectory.  [None]: a zero
    duration, for which the divisions yield coefficients that are not finite. *)
Definition interp4 (p0 p1 v0 v1 T : R) : option coef4 :=
  if Reqb T 0 then None
  else Some (MkC4 (2 / T ^ 3 * p0 + 1 / T ^ 2 * v0 + -2 / T ^ 3 * p1 + 1 / T ^ 2 * v1)
                  (-3 / T ^ 2 * p0 + -2 / T * v0 + 3 / T ^ 2 * p1 + -1 / T * v1)
                  v0 p0).
Definition pos4 (c : coef4) (s : R) : R := s ^ 3 * k3 c + s ^ 2 * k2 c + s * k1 c + k0 c.
Definition vel4 (c : coef4) (s : R) : R := 3 * s ^ 2 * k3 c + 2 * s * k2 c + k1 c.

(** Coefficients of a quintic. *)
Record coef6 : Type := MkC6 { h5 : R; h4 : R; h3 : R; h2 : R; h1 : R; h0 : R }.
(** src/DCMTrajectoryGeneratorHelper.cpp:581-614, polinominalInterpolation of DoubleSupportTrajectoryMinJerk.  The
    entries written [1/6] and [1/2] at 606-607 are integer divisions, hence 0. *)
Definition int_div_1_6 : R := 0.
Definition int_div_1_2 : R := 0.
Definition interp6 (p0 p1 v0 v1 acc jerk T : R) : option coef6 :=
  if Reqb T 0 then None
  else Some (MkC6 (4 / T ^ 5 * p0 + 3 / T ^ 4 * v0 + 1 / T ^ 3 * acc + 1 / (6 * T ^ 2) * jerk + -4 / T ^ 5 * p1 + 1 / T ^ 4 * v1)
                  (-5 / T ^ 4 * p0 + -4 / T ^ 3 * v0 + -3 / (2 * T ^ 2) * acc + -1 / (3 * T) * jerk + 5 / T ^ 4 * p1 + -1 / T ^ 3 * v1)
                  (int_div_1_6 * jerk) (int_div_1_2 * acc) v0 p0).
Definition pos6 (c : coef6) (s : R) : R := s ^ 5 * h5 c + s ^ 4 * h4 c + s ^ 3 * h3 c + s ^ 2 * h2 c + s * h1 c + h0 c.
Definition vel6 (c : coef6) (s : R) : R := 5 * s ^ 4 * h5 c + 4 * s ^ 3 * h4 c + 3 * s ^ 2 * h3 c + 2 * s * h2 c + h1 c.

(** The three classes derived from GeneralSupportTrajectory. *)
Inductive sub : Type :=
| SubS (s : ssd)
| Sub3 (t0 t1 om : R) (c : option (coef4 * coef4))
| Sub5 (t0 t1 om : R) (c : option (coef6 * coef6)).
Definition sub_t0 (s : sub) : R := match s with SubS s => ss_t0 s | Sub3 a _ _ _ => a | Sub5 a _ _ _ => a end.
Definition sub_t1 (s : sub) : R := match s with SubS s => ss_t1 s | Sub3 _ b _ _ => b | Sub5 _ b _ _ => b end.

(** Values; [None]: not finite.
    src/DCMTrajectoryGeneratorHelper.cpp:152-205 (single support), 456-530 (cubic), 616-693 (quintic). *)
Definition sub_pos (s : sub) (t : R) : option vec2 :=
  match s with
  | SubS s => Some (ss_pos s t)
  | Sub3 a _ _ (Some (cx, cy)) => Some (V2 (pos4 cx (t - a)) (pos4 cy (t - a)))
  | Sub5 a _ _ (Some (cx, cy)) => Some (V2 (pos6 cx (t - a)) (pos6 cy (t - a)))
  | _ => None
  end.
Definition sub_vel (s : sub) (t : R) : option vec2 :=
  match s with
  | SubS s => Some (ss_vel s t)
  | Sub3 a _ _ (Some (cx, cy)) => Some (V2 (vel4 cx (t - a)) (vel4 cy (t - a)))
  | Sub5 a _ _ (Some (cx, cy)) => Some (V2 (vel6 cx (t - a)) (vel6 cy (t - a)))
  | _ => None
  end.
Definition sub_om (s : sub) : R := match s with SubS s => ss_om s | Sub3 _ _ o _ => o | Sub5 _ _ o _ => o end.
Definition sub_zmp (s : sub) (t : R) : option vec2 :=
  match s with
  | SubS s => Some (ss_zmp s)
  | _ => match sub_pos s t, sub_vel s t with
         | Some p, Some v => Some (vsub p (vscale (/ sub_om s) v))
         | _, _ => None
         end
  end.

(** src/DCMTrajectoryGeneratorHelper.cpp:26-36: the assertions of the constructor; [UB]: the program is aborted, or goes
    on with meaningless values if assertions are compiled out. *)
Definition asserted (t0 t1 om : R) : bool := Rleb t0 t1 && Rgtb om 0.
(** src/DCMTrajectoryGeneratorHelper.cpp:140-150. *)
Definition mk_ss (t0 t1 om : R) (zmp : vec2) (b : dpoint) : res ssd :=
  if asserted t0 t1 om then Ok (MkSS t0 t1 om zmp (d_t b) (d_p b)) else UB.
(** src/DCMTrajectoryGeneratorHelper.cpp:384-422. *)
Definition mk_3 (a b : dpoint) (om : R) : res sub :=
  if asserted (d_t a) (d_t b) om then
    let T := d_t b - d_t a in
    Ok (Sub3 (d_t a) (d_t b) om
         (match interp4 (vx (d_p a)) (vx (d_p b)) (vx (d_v a)) (vx (d_v b)) T,
                interp4 (vy (d_p a)) (vy (d_p b)) (vy (d_v a)) (vy (d_v b)) T with
          | Some cx, Some cy => Some (cx, cy) | _, _ => None end))
  else UB.
(** src/DCMTrajectoryGeneratorHelper.cpp:533-579. *)
Definition mk_5 (a b : dpoint) (acc jerk : vec2) (om : R) : res sub :=
  if asserted (d_t a) (d_t b) om then
    let T := d_t b - d_t a in
    Ok (Sub5 (d_t a) (d_t b) om
         (match interp6 (vx (d_p a)) (vx (d_p b)) (vx (d_v a)) (vx (d_v b)) (vx acc) (vx jerk) T,
                interp6 (vy (d_p a)) (vy (d_p b)) (vy (d_v a)) (vy (d_v b)) (vy acc) (vy jerk) T with
          | Some cx, Some cy => Some (cx, cy) | _, _ => None end))
  else UB.

(** src/DCMTrajectoryGeneratorHelper.cpp:46-57, timeBelongsToDomain. *)
Definition in_domain (t0 t1 t tol : R) : bool := Rgeb t (t0 - tol) && Rleb t (t1 + tol).
(** A checked getter: refused outside of the domain. *)
Definition checked {A : Type} (t0 t1 t tol : R) (x : A) : res A := if in_domain t0 t1 t tol then Ok x else Fail.

(** ** Configuration *)
(** Members that the user sets, and the one-shot initial state (position, velocity) kept with a flag,
    src/DCMTrajectoryGenerator.cpp:19-30. *)
Record dcfg : Type := MkDC {
  dc_om : R; dc_alpha : R; dc_still : R; dc_last : R; dc_five : bool;
  dc_offL : vec2; dc_offR : vec2; dc_init : option (vec2 * vec2)
}.
(** src/DCMTrajectoryGeneratorHelper.cpp:696-706, src/DCMTrajectoryGenerator.cpp:26-31. *)
Definition dc_new : dcfg := MkDC (981 / 100 / (1 / 2)) (1 / 2) (1 / 10) 0 false vzero vzero None.
(** src/DCMTrajectoryGenerator.cpp:122-178, src/DCMTrajectoryGeneratorHelper.cpp:708-781. *)
Inductive dop : Type :=
| DOmega (x : R) | DAlpha (x : R) | DStill (x : R) | DLast (x : R) | DMode (five : bool)
| DOffset (l r : vec2) | DInit (p v : vec2).
Definition dc_call (c : dcfg) (o : dop) : dcfg * bool :=
  let '(MkDC om al st la fi ol orr ini) := c in
  match o with
  | DOmega x => if Rltb x 0 then (c, false) else (MkDC x al st la fi ol orr ini, true)
  | DAlpha x => if Rltb x 0 && Rgtb x 1 then (c, false) else (MkDC om x st la fi ol orr ini, true)
  | DStill x => if Rltb x 0 && Rgtb x 1 then (c, false) else (MkDC om al x la fi ol orr ini, true)
  | DLast x => if Rgtb x 1 || Rltb x 0 then (c, false) else (MkDC om al st x fi ol orr ini, true)
  | DMode b => (MkDC om al st la b ol orr ini, true)
  | DOffset l r => (MkDC om al st la fi l r ini, true)
  | DInit p v => (MkDC om al st la fi ol orr (Some (p, v)), true)
  end.
Definition dc_run (c : dcfg) (o : dop) : dcfg := fst (dc_call c o).

(** ** Construction *)
Section Build.
Variable c : dcfg.
Variable Z : ztimes.        (* pause conditions, src/DCMTrajectoryGeneratorHelper.cpp:1445-1485 *)
Variable dT : R.

(** src/DCMTrajectoryGeneratorHelper.cpp:783-805, getZMPGlobalPosition. *)
Definition zmp_at (s : step) : res vec2 :=
  do d <- (if String.eqb (st_name s) "left" then Ok (dc_offL c)
           else if String.eqb (st_name s) "right" then Ok (dc_offR c) else Fail);
  Ok (V2 (vx (st_pos s) + cos (st_angle s) * vx d - sin (st_angle s) * vy d)
         (vy (st_pos s) + sin (st_angle s) * vx d + cos (st_angle s) * vy d)).

Definition mid (a b : vec2) : vec2 := vscale (/ 2) (vadd a b).

(** m_trajectory, the element pushed last comes first: sub-trajectories in the order of time. *)
(** m_trajectory.back(), used as the next single support, src/DCMTrajectoryGeneratorHelper.cpp:968, 1065, 1267. *)
Definition next_ss (tr : list sub) : res ssd :=
  match tr with SubS s :: _ => Ok s | _ => UB end.

(** src/DCMTrajectoryGeneratorHelper.cpp:889-953, addLastStep; [tr] is empty there. *)
Definition add_last (t0 t1 t2 : R) (zmp : vec2) (b : dpoint) (fin : vec2) (tr : list sub) : res (list sub) :=
  do s <- mk_ss t0 t1 (dc_om c) zmp b;
  let share := 1 - dc_still c in
  let tm := t1 + (t2 - t1) * share in
  do v <- checked (ss_t0 s) (ss_t1 s) t1 (dT / 2) (ss_vel s t1);
  do f <- mk_3 (MkD tm fin vzero) (MkD t2 fin vzero) (dc_om c);
  do d <- mk_3 (MkD t1 (d_p b) v) (MkD tm fin vzero) (dc_om c);
  Ok (SubS s :: d :: f :: tr).

(** Does a double support of duration [T] pause?  src/DCMTrajectoryGeneratorHelper.cpp:1002-1003, 1097-1098. *)
Definition ds_pauses (T : R) : bool := z_pause Z && Rgtb T (Rmax (z_max Z) (z_end Z + z_nom Z)).

(** src/DCMTrajectoryGeneratorHelper.cpp:955-1059, addNewStep. *)
Definition add_new (t0 t1 : R) (zmp : vec2) (b : dpoint) (tr : list sub) : res (list sub) :=
  do s <- mk_ss t0 t1 (dc_om c) zmp b;
  do nx <- next_ss tr;
  let t2 := ss_t0 nx in
  do p1 <- checked (ss_t0 s) (ss_t1 s) t1 (dT / 2) (ss_pos s t1);
  do v1 <- checked (ss_t0 s) (ss_t1 s) t1 (dT / 2) (ss_vel s t1);
  do p2 <- checked (ss_t0 nx) (ss_t1 nx) t2 (dT / 2) (ss_pos nx t2);
  do v2 <- checked (ss_t0 nx) (ss_t1 nx) t2 (dT / 2) (ss_vel nx t2);
  if ds_pauses (t2 - t1) then
    let m := mid zmp (ss_zmp nx) in
    let ta := t1 + z_end Z in let tb := t2 - z_nom Z in
    do x3 <- mk_3 (MkD tb m vzero) (MkD t2 p2 v2) (dc_om c);
    do x2 <- mk_3 (MkD ta m vzero) (MkD tb m vzero) (dc_om c);
    do x1 <- mk_3 (MkD t1 p1 v1) (MkD ta m vzero) (dc_om c);
    Ok (SubS s :: x1 :: x2 :: x3 :: tr)
  else
    do x <- mk_3 (MkD t1 p1 v1) (MkD t2 p2 v2) (dc_om c);
    Ok (SubS s :: x :: tr).

(** The first piece: cubic, or quintic with zero initial acceleration and jerk,
    src/DCMTrajectoryGeneratorHelper.cpp:1137-1173. *)
Definition mk_first (a b : dpoint) : res sub :=
  if dc_five c then mk_5 a b vzero vzero (dc_om c) else mk_3 a b (dc_om c).

(** src/DCMTrajectoryGeneratorHelper.cpp:1061-1180, addFirstDoubleSupportPhase. *)
Definition add_first (a : dpoint) (swing : step) (tr : list sub) : res (list sub) :=
  do nx <- next_ss tr;
  let t2 := ss_t0 nx in
  do p2 <- checked (ss_t0 nx) (ss_t1 nx) t2 (dT / 2) (ss_pos nx t2);
  do v2 <- checked (ss_t0 nx) (ss_t1 nx) t2 (dT / 2) (ss_vel nx t2);
  if ds_pauses (t2 - d_t a) then
    do z <- zmp_at swing;
    let m := mid z (ss_zmp nx) in
    let ta := d_t a + z_end Z in let tb := t2 - z_nom Z in
    do x3 <- mk_3 (MkD tb m vzero) (MkD t2 p2 v2) (dc_om c);
    do x2 <- mk_3 (MkD ta m vzero) (MkD tb m vzero) (dc_om c);
    do x1 <- mk_first a (MkD ta m vzero);
    Ok (x1 :: x2 :: x3 :: tr)
  else
    do x <- mk_first a (MkD t2 p2 v2);
    Ok (x :: tr).

Variable ord : list step.
Variable shift : list nat.
(** Checked vector accesses. *)
Definition shift_at (k : nat) : res R := match nth_error shift k with Some n => Ok (INR n * dT) | None => UB end.
Definition step_at (k : nat) : res step := match nth_error ord k with Some s => Ok s | None => UB end.

(** src/DCMTrajectoryGeneratorHelper.cpp:1256-1290, from phase index [pi] and ordered step index [oi]. *)
Fixpoint build_loop (pi oi : nat) (tr : list sub) : res (list sub) :=
  match pi with
  | S (S k) =>
      do t1 <- shift_at pi;
      do t0 <- shift_at (S k);
      do nx <- next_ss tr;
      let tb := (ss_t0 nx + t1) * dc_alpha c in
      do s <- step_at oi;
      do z <- zmp_at s;
      do oi' <- sub_size oi 1;
      do tr' <- add_new t0 t1 z (MkD tb (ss_pos nx tb) vzero) tr;
      build_loop k oi' tr'
  | _ => Ok tr
  end.

(** src/DCMTrajectoryGeneratorHelper.cpp:1182-1368, generateDCMTrajectory without the evaluation.
    [p0], [v0]: initial state. *)
Definition build (lph : list phase) (p0 v0 : vec2) : res (list sub) :=
  if Nat.ltb (length ord) 2 then Fail
  else if Nat.ltb 2 (length ord) then
    do pi <- sub_size (length shift) 1;
    do oi <- sub_size (length ord) 1;
    do t2 <- shift_at pi;
    do pi <- sub_size pi 1;
    do t1 <- shift_at pi;
    do pi <- sub_size pi 1;
    do t0 <- shift_at pi;
    do pi <- sub_size pi 1;
    do s1 <- step_at oi;
    do lastZ <- zmp_at s1;
    do oi <- sub_size oi 1;
    do s2 <- step_at oi;
    do otherZ <- zmp_at s2;
    do oi <- sub_size oi 1;
    let fin := mid lastZ otherZ in
    let b := MkD t1 (vadd (vscale (1 - dc_last c) otherZ) (vscale (dc_last c) lastZ)) vzero in
    do tr <- add_last t0 t1 t2 otherZ b fin [];
    do tr <- build_loop pi oi tr;
    do o0 <- step_at 0;
    do o1 <- step_at 1;
    match lph with
    | [] => UB
    | l0 :: _ =>
        let name := match l0 with SwitchIn => "right"%string | _ => "left"%string end in
        add_first (MkD 0 p0 v0) (if String.eqb (st_name o0) name then o0 else o1) tr
    end
  else
    do t0 <- shift_at 0;
    do o0 <- step_at 0;
    do z0 <- zmp_at o0;
    do o1 <- step_at 1;
    do z1 <- zmp_at o1;
    do k <- sub_size (length shift) 1;
    do t1 <- shift_at k;
    do x <- mk_3 (MkD t0 p0 v0) (MkD t1 (mid z0 z1) vzero) (dc_om c);
    Ok [x].

(** ** Evaluation *)
(** What the getters report for one instant: [None] stands for a value that is not finite. *)
Record dsample : Type := MkDS { ds_p : option vec2; ds_v : option vec2; ds_z : option vec2 }.
(** src/DCMTrajectoryGeneratorHelper.cpp:1388-1415: [n] more instants from [i]. *)
Fixpoint eval_loop (n i : nat) (tr : list sub) : res (list dsample) :=
  match n with
  | O => Ok []
  | S n =>
      match tr with
      | [] => UB
      | s :: r =>
          let time := INR i * dT in
          let tr' := if Rgtb time (sub_t1 s) then r else tr in
          match tr' with
          | [] => UB
          | x :: _ =>
              do y <- checked (sub_t0 x) (sub_t1 x) time (dT / 2) (MkDS (sub_pos x time) (sub_vel x time) (sub_zmp x time));
              do rest <- eval_loop n (S i) tr';
              Ok (y :: rest)
          end
      end
  end.
(** src/DCMTrajectoryGeneratorHelper.cpp:1371-1417. *)
Definition evaluate (tr : list sub) : res (list dsample) :=
  match shift with
  | [] => UB
  | a :: _ => do n <- sub_size (last shift 0%nat) a; eval_loop n a tr
  end.

(** ** Weights *)
(** src/DCMTrajectoryGeneratorHelper.cpp:865-871: share of the left foot.  If the feet ZMPs coincide or the ZMP is not
    finite, the quotient is infinite or not a number, and std::max(0.0, .) returns 0. *)
Definition left_share (zl zr : vec2) (z : option vec2) : R :=
  match z with
  | None => 0
  | Some z => if Reqb (vnorm (vsub zr zl)) 0 then 0
              else Rmin 1 (Rmax 0 (1 - vnorm (vsub z zl) / vnorm (vsub zr zl)))
  end.
(** src/DCMTrajectoryGeneratorHelper.cpp:853-861: ZMP of a foot on a step. *)
Definition foot_zmp (off : vec2) (s : step) : vec2 :=
  V2 (vx (st_pos s) + cos (st_angle s) * vx off - sin (st_angle s) * vy off)
     (vy (st_pos s) + sin (st_angle s) * vx off + cos (st_angle s) * vy off).
(** src/DCMTrajectoryGeneratorHelper.cpp:828-885, over the boundaries [ends]; [ls], [rs]: the steps from the current
    one on.  The right weights are one minus these (or 0 and 1). *)
Fixpoint weight_loop (lph : list phase) (zs : list dsample) (ends : list nat) (inst : nat) (ls rs : list step)
  : res (list (R * R)) :=
  match ends with
  | [] => Ok []
  | e :: r =>
      match nth_error lph inst, ls, rs with
      | Some Stance, _, _ :: rs' =>
          if Nat.ltb (length zs) e then UB
          else match rs' with
               | [] => Fail
               | _ => do rest <- weight_loop lph zs r (Nat.max inst e) ls rs'; Ok (repeat (1, 0) (e - inst) ++ rest)
               end
      | Some Swing, _ :: ls', _ =>
          if Nat.ltb (length zs) e then UB
          else match ls' with
               | [] => Fail
               | _ => do rest <- weight_loop lph zs r (Nat.max inst e) ls' rs; Ok (repeat (0, 1) (e - inst) ++ rest)
               end
      | Some _, sl :: _, sr :: _ =>
          if Nat.ltb (length zs) e then UB
          else
            let zl := foot_zmp (dc_offL c) sl in let zr := foot_zmp (dc_offR c) sr in
            do rest <- weight_loop lph zs r (Nat.max inst e) ls rs;
            Ok (map (fun i => let w := left_share zl zr (match nth_error zs i with Some y => ds_z y | None => None end) in (w, 1 - w))
                    (seq inst (e - inst)) ++ rest)
      | _, _, _ => UB
      end
  end.

End Build.

(** Everything the getters return. *)
Record dout : Type := MkDO { do_subs : list sub; do_samples : list dsample; do_weights : list (R * R) }.

(** src/DCMTrajectoryGeneratorHelper.cpp:1445-1485, setPauseConditions: is the call accepted? *)
Definition pause_ok (Z : ztimes) : bool :=
  negb (Rltb (z_max Z) 0) && negb (z_pause Z && (Rleb (z_nom Z) 0 || Rltb (z_end Z) 0)).

(** src/DCMTrajectoryGenerator.cpp:41-117, computeNewTrajectories.  The second component is the configuration
    afterwards.  When it fails the configuration is kept; the output vectors may already be partly overwritten, which
    is not modelled. *)
Definition dcm_compute (c : dcfg) (Z : ztimes) (initT dT : R) (left right : footprint) (ord : list step) (P : phases)
  : res (dout * dcfg) :=
  do ini <- match dc_init c with
            | Some x => Ok x
            | None => match fp_steps left, fp_steps right with
                      | l0 :: _, r0 :: _ => Ok (mid (vadd (st_pos l0) (dc_offL c)) (vadd (st_pos r0) (dc_offR c)), vzero)
                      | _, _ => UB
                      end
            end;
  match fp_steps left, fp_steps right with
  | l0 :: _, r0 :: _ =>
      if Rleb dT 0 then Fail
      else if Rltb initT (Rmax (st_time l0) (st_time r0)) then Fail
      else if negb (pause_ok Z) then Fail
      else
        do tr <- build c Z dT ord (ph_shift P) (ph_left P) (fst ini) (snd ini);
        do ys <- evaluate dT (ph_shift P) tr;
        do ws <- weight_loop c (ph_left P) ys (tl (ph_shift P)) 0 (fp_steps left) (fp_steps right);
        Ok (MkDO tr ys ws,
            MkDC (dc_om c) (dc_alpha c) (dc_still c) (dc_last c) (dc_five c) (dc_offL c) (dc_offR c) None)
  | _, _ => Fail
  end.
