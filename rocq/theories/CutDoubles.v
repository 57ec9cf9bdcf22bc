(** What the free space ellipses contribute to the reference of the person following controller, over a parameter arithmetic:
    src/PersonFollowingController.cpp:309-344 and src/FreeSpaceEllipse.cpp:326-351. *)
From Coq Require Import Reals ZArith List Bool.
From Verif Require Import Prelude Doubles CtrlDoubles TrackDoubles StepDoubles PersonDoubles EllDoubles ProjDoubles.
Import ListNotations.

Section Cut.
Variable N : Type.
Variable A : arith N.
Variable M : maths N.
(** The entry (1,1) of R_pi_2, which is never written. *)
Variable garbage : N.

(** src/FreeSpaceEllipse.cpp:326-351, getTangentVector. *)
Definition v_tangent (z : free N) (p : N * N) : N * N :=
  let g := v_gen A z p in
  let t := (a_add A (a_mul A (c0 A) (fst g)) (a_mul A (a_q A (-1) 1) (snd g)), a_add A (a_mul A (c1 A) (fst g)) (a_mul A garbage (snd g))) in
  let '((p0, q0), (r0, t0)) := v_C z in
  let v := (a_add A (a_mul A p0 (fst t)) (a_mul A q0 (snd t)), a_add A (a_mul A r0 (fst t)) (a_mul A t0 (snd t))) in
  if a_lt A (v_tiny A) (v_norm A M v) then v_unit A M v else (c0 A, c0 A).
(** src/PersonFollowingController.cpp:316 and 324-341: the blending factor before tanh. *)
Definition v_blend (S : field -> N) (outer inner : option (free N)) (y : N * N) (u : dpose N) : N :=
  match inner, outer with
  | Some _, Some z =>
      let pos := (d_x u, d_y u) in let person := p_person A M S u in
      match v_closest A M outer pos person with
      | None => c0 A
      | Some i =>
          let tan := v_tangent z i in let m := g_sub A y person in let n := v_norm A M m in
          if a_lt A (a_q A 1 10000) n then a_div A (a_abs A (a_add A (a_mul A (fst m) (fst tan)) (a_mul A (snd m) (snd tan)))) n else c0 A
      end
  | _, _ => c0 A
  end.
(** src/PersonFollowingController.cpp:309-344. *)
Definition v_cut (S : field -> N) (outer inner : option (free N)) : cut N :=
  MkCut (fun y _ => match inner with None => false | Some z => a_le A (v_norm A M (v_gen A z y)) (c1 A) end)
        (fun y u => v_project A M outer y (d_x u, d_y u))
        (fun y u => match inner with None => v_project A M outer y (d_x u, d_y u) | Some _ => v_project A M inner y (d_x u, d_y u) end)
        (fun y u => v_blend S outer inner y u).
End Cut.
Arguments v_tangent {N}. Arguments v_blend {N}. Arguments v_cut {N}.
