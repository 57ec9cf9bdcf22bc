(** The desired trajectory of src/PersonFollowingController.cpp over a parameter arithmetic. *)
From Coq Require Import Reals ZArith List Bool.
From Verif Require Import Prelude Doubles.
Import ListNotations.

(** include/PersonFollowingController.h, TrajectoryPoint. *)
Record qpoint (N : Type) : Type := MkQP { q_time : N; q_y : N * N; q_yd : N * N }.
Arguments MkQP {N}. Arguments q_time {N}. Arguments q_y {N}. Arguments q_yd {N}.
(** Calls that change the desired trajectory. *)
Inductive qop (N : Type) : Type := QPoint (p : qpoint N) | QClear | QUpTo (t : N).
Arguments QPoint {N}. Arguments QClear {N}. Arguments QUpTo {N}.

Section Track.
Variable N : Type.
Variable A : arith N.
Definition q_zero : N * N := (c0 A, c0 A).
(** src/PersonFollowingController.cpp:50-54. *)
Definition q_new : list (qpoint N) := [MkQP (c0 A) q_zero q_zero].
(** src/PersonFollowingController.cpp:20. *)
Definition q_ratio (t : N) (p n : qpoint N) : N := a_div A (a_sub A (q_time n) t) (a_sub A (q_time n) (q_time p)).
(** src/PersonFollowingController.cpp:22-23, one coordinate. *)
Definition q_mix (r a b : N) : N := a_add A (a_mul A r a) (a_mul A (a_sub A (c1 A) r) b).
Definition q_mix2 (r : N) (a b : N * N) : N * N := (q_mix r (fst a) (fst b), q_mix r (snd a) (snd b)).
(** src/PersonFollowingController.cpp:15-25. *)
Definition q_interp (t : N) (p n : qpoint N) : (N * N) * (N * N) :=
  let r := q_ratio t p n in (q_mix2 r (q_y p) (q_y n), q_mix2 r (q_yd p) (q_yd n)).
(** src/PersonFollowingController.cpp:284-293, the search from the end. *)
Fixpoint q_find (t : N) (next : option (qpoint N)) (rl : list (qpoint N)) : option (qpoint N * option (qpoint N)) :=
  match rl with
  | [] => None
  | p :: r => if a_le A (q_time p) t then Some (p, next) else q_find t (Some p) r
  end.
(** src/PersonFollowingController.cpp:263-300, getDesiredPoint ([None]: returned false). *)
Definition q_desired (l : list (qpoint N)) (t : N) : option ((N * N) * (N * N)) :=
  if a_lt A t (c0 A) then None
  else match l with
       | [] => None
       | f :: _ =>
           if a_lt A t (q_time f) then None
           else match q_find t None (rev l) with
                | None => None
                | Some (p, None) => Some (q_y p, q_yd p)
                | Some (p, Some n) => Some (q_interp t p n)
                end
       end.
(** src/PersonFollowingController.cpp:188-191. *)
Fixpoint q_drop (t : N) (l : list (qpoint N)) : list (qpoint N) :=
  match l with
  | [] => []
  | p :: r => if a_le A (q_time p) t then q_drop t r else l
  end.
(** src/PersonFollowingController.cpp:173-201, with the simplification of [PersonFollowing.pf_clearUpTo]. *)
Definition q_clearUpTo (t : N) (l : list (qpoint N)) : list (qpoint N) * bool :=
  if a_lt A t (c0 A) then (l, false)
  else match l with
       | [] => (l, true)
       | _ => match q_desired l t with
              | None => (l, false)
              | Some (y, yd) => (MkQP t y yd :: q_drop t l, true)
              end
       end.
(** src/PersonFollowingController.cpp:143-155; [sortf] is std::sort. *)
Definition q_setPoint (sortf : list (qpoint N) -> list (qpoint N)) (p : qpoint N) (l : list (qpoint N)) : list (qpoint N) * bool :=
  if a_lt A (q_time p) (c0 A) then (l, false) else (sortf (l ++ [p]), true).
(** src/PersonFollowingController.cpp:168-171 for [QClear]. *)
Definition q_call (sortf : list (qpoint N) -> list (qpoint N)) (l : list (qpoint N)) (o : qop N) : list (qpoint N) :=
  match o with QPoint p => fst (q_setPoint sortf p l) | QClear => [] | QUpTo t => fst (q_clearUpTo t l) end.
Definition q_history (sortf : list (qpoint N) -> list (qpoint N)) (ops : list (qop N)) : list (qpoint N) := fold_left (q_call sortf) ops q_new.
End Track.
Arguments q_new {N}. Arguments q_ratio {N}. Arguments q_mix {N}. Arguments q_mix2 {N}. Arguments q_interp {N}. Arguments q_find {N}.
Arguments q_desired {N}. Arguments q_drop {N}. Arguments q_clearUpTo {N}. Arguments q_setPoint {N}. Arguments q_call {N}. Arguments q_history {N}.
