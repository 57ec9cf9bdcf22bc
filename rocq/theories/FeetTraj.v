(** Model of the feet trajectories: src/FeetMinimumJerkGenerator.cpp (complete) and the phase loop shared with
    src/FeetCubicSplineGenerator.cpp. *)
From Coq Require Import String Reals Lra Lia ZArith List Bool.
From Verif Require Import Prelude Rounding FootPrint GenPhases.
Import ListNotations.
Open Scope R_scope.

(** A scalar with its first and second derivative. *)
Record pva : Type := MkPva { p_p : R; p_v : R; p_a : R }.
(** One instant of a foot: position, pitch and yaw.  What the getters return for it is in
    FeetPose.v. *)
Record sample : Type := MkSample { s_x : pva; s_y : pva; s_z : pva; s_pitch : pva; s_yaw : pva }.

Definition still (x : R) : pva := MkPva x 0 0.
(** src/FeetMinimumJerkGenerator.cpp:261-275: a foot at rest on step [s]. *)
Definition rest_at (s : step) : sample :=
  MkSample (still (vx (st_pos s))) (still (vy (st_pos s))) (still 0) (still 0) (still (st_angle s)).

(** src/FeetMinimumJerkGenerator.cpp:40-63.  A zero duration is not used by the callers (0/0). *)
Definition min_jerk (i f t d : R) : res pva :=
  if Reqb d 0 then UB
  else
    let n := t / d in
    if Rltb n 0 || Rgtb n 1 then Fail
    else
      let p := 6 * n ^ 5 - 15 * n ^ 4 + 10 * n ^ 3 in
      let dp := (5 * 6 * n ^ 4 - 4 * 15 * n ^ 3 + 3 * 10 * n ^ 2) / d in
      let ddp := (4 * 5 * 6 * n ^ 3 - 3 * 4 * 15 * n ^ 2 + 2 * 3 * 10 * n) / d ^ 2 in
      Ok (MkPva (p * (f - i) + i) (dp * (f - i)) (ddp * (f - i))).

(** Settings, src/FeetMinimumJerkGenerator.cpp:20 and 309-347.  The landing velocity is stored but never read. *)
Record feetcfg : Type := MkFC { f_height : R; f_pitch : R; f_apex : R; f_landing : R }.
Definition feet_new : feetcfg := MkFC (-1) 0 (1 / 2) 0.
Inductive feetop : Type := FHeight (h : R) | FPitch (deg : R) | FApex (r : R) | FLanding (v : R).
Definition feet_call (c : feetcfg) (o : feetop) : feetcfg * bool :=
  match o with
  | FHeight h => if Rltb h 0 then (c, false) else (MkFC h (f_pitch c) (f_apex c) (f_landing c), true)
  | FPitch a => (MkFC (f_height c) (a * PI / 180) (f_apex c) (f_landing c), true)
  | FApex r => if Rleb r 0 || Rgeb r 1 then (c, false) else (MkFC (f_height c) (f_pitch c) r (f_landing c), true)
  | FLanding v => (MkFC (f_height c) (f_pitch c) (f_apex c) v, true)
  end.
Definition feet_history (ops : list feetop) : feetcfg := fold_left (fun c o => fst (feet_call c o)) ops feet_new.

(** src/FeetMinimumJerkGenerator.cpp:134-165 and 191-223: sample [k] of a swing of [n] samples; [z0], [z1], [p0], [p1]
    are the end values of the current half, [t1] the time since its beginning and [half] its duration. *)
Definition swing_sample (dT : R) (n k : nat) (s0 s1 : step) (z0 z1 q0 q1 t1 half : R) : res sample :=
  let len := INR n * dT in
  let t := INR k * dT in
  do x <- min_jerk (vx (st_pos s0)) (vx (st_pos s1)) t len;
  do y <- min_jerk (vy (st_pos s0)) (vy (st_pos s1)) t len;
  do z <- min_jerk z0 z1 t1 half;
  do q <- min_jerk q0 q1 t1 half;
  do w <- min_jerk (st_angle s0) (st_angle s1) t len;
  Ok (MkSample x y z q w).

Fixpoint collect {A : Type} (l : list (res A)) : res (list A) :=
  match l with
  | [] => Ok []
  | r :: l => do a <- r ; do t <- collect l ; Ok (a :: t)
  end.

(** src/FeetMinimumJerkGenerator.cpp:126-257: the samples of a swing lasting [n] instants from [s0] to [s1]. *)
Definition swing_minjerk (c : feetcfg) (dT : R) (n : nat) (s0 s1 : step) : res (list sample) :=
  let n1 := nround (INR n * f_apex c) in
  let len := INR n * dT in
  let up := map (fun k => swing_sample dT n k s0 s1 0 (f_height c) 0 (f_pitch c) (INR k * dT) (len * f_apex c)) (seq 0 n1) in
  let down := map (fun k => swing_sample dT n k s0 s1 (f_height c) 0 (f_pitch c) 0 (INR k * dT - INR n1 * dT) (len * (1 - f_apex c)))
                  (seq n1 (n - n1)) in
  collect (up ++ down).

(** src/FeetMinimumJerkGenerator.cpp:88-276 and src/FeetCubicSplineGenerator.cpp:80-204: the loop over the phase
    boundaries [ends] (without the first one).  [st] is the part of the step list from [footState] on, [inst] is
    [instant].  Reading or writing at or past the number of instants is undefined.  [swing] produces the samples of a
    swing. *)
Section Loop.
Variable swing : nat -> step -> step -> res (list sample).
Variable ph : list phase.
Fixpoint feet_loop (ends : list nat) (inst : nat) (st : list step) : res (list sample) :=
  match ends with
  | [] => Ok []
  | e :: r =>
      match nth_error ph inst, st with
      | None, _ => UB
      | _, [] => UB
      | Some Swing, s0 :: st' =>
          do n <- sub_size e inst;
          match st' with
          | [] => Fail
          | s1 :: _ =>
              do out <- swing n s0 s1;
              if Nat.ltb (length ph) (inst + length out) then UB
              else do rest <- feet_loop r (inst + length out) st'; Ok (out ++ rest)
          end
      | Some _, s0 :: _ =>
          let out := repeat (rest_at s0) (e - inst) in
          if Nat.ltb (length ph) (inst + length out) then UB
          else do rest <- feet_loop r (inst + length out) st; Ok (out ++ rest)
      end
  end.
End Loop.

(** src/FeetMinimumJerkGenerator.cpp:66-279, interpolateFoot. *)
Definition interpolate_foot (c : feetcfg) (dT : R) (shift : list nat) (ph : list phase) (steps : list step) : res (list sample) :=
  if Rltb (f_height c) 0 then Fail
  else feet_loop (swing_minjerk c dT) ph (tl shift) 0 steps.

(** src/FeetMinimumJerkGenerator.cpp:288-303. The stored trajectories are those of the last successful interpolation of
    each foot: a failure on the right foot leaves the left one replaced. *)
Definition feet_compute (c : feetcfg) (dT : R) (left right : list step) (lph rph : list phase) (shift : list nat)
  : res (list sample * list sample) :=
  do a <- interpolate_foot c dT shift lph left;
  do b <- interpolate_foot c dT shift rph right;
  Ok (a, b).
