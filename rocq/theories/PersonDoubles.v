(** The control law of src/PersonFollowingController.cpp over a parameter arithmetic.  What the free space ellipses contribute is a
    parameter here (see EllDoubles.v for their test in doubles). *)
From Coq Require Import Reals ZArith List Bool.
From Verif Require Import Prelude Doubles CtrlDoubles TrackDoubles.
Import ListNotations.

(** What the ellipses contribute to src/PersonFollowingController.cpp:302-348, given the desired point and the pose: whether the point is
    inside the inner one (line 309), the points projected on the outer and on the inner one (lines 320-327), and the blending factor before
    line 344. *)
Record cut (N : Type) : Type := MkCut {
  cut_skip : N * N -> dpose N -> bool; cut_outer : N * N -> dpose N -> N * N; cut_inner : N * N -> dpose N -> N * N; cut_bf : N * N -> dpose N -> N }.
Arguments MkCut {N}. Arguments cut_skip {N}. Arguments cut_outer {N}. Arguments cut_inner {N}. Arguments cut_bf {N}.

Section Person.
Variable N : Type.
Variable A : arith N.
Variable M : maths N.

(** Neither ellipse is set: lines 314-316 only. *)
Definition no_cut : cut N := MkCut (fun _ _ => false) (fun y _ => y) (fun y _ => y) (fun _ _ => c0 A).
(** src/PersonFollowingController.cpp:118-131.  The product of Eigen is a sum over each row. *)
Definition p_person (S : field -> N) (u : dpose N) : N * N :=
  let ct := x_cos M (d_th u) in let st := x_sin M (d_th u) in
  (a_add A (d_x u) (a_add A (a_mul A ct (S q_distX)) (a_mul A (x_opp M st) (S q_distY))),
   a_add A (d_y u) (a_add A (a_mul A st (S q_distX)) (a_mul A ct (S q_distY)))).
(** src/PersonFollowingController.cpp:60-68 and 77-82: desired point [y] and velocity [v]. *)
Definition p_law (S : field -> N) (y v : N * N) (u : dpose N) : dcmd N :=
  let st := x_sin M (d_th u) in let ct := x_cos M (d_th u) in
  let dx := S q_distX in let dy := S q_distY in
  let b00 := a_add A (a_mul A (a_div A (x_opp M dy) dx) st) ct in
  let b01 := a_add A (a_mul A (a_div A dy dx) ct) st in
  let b10 := a_div A (x_opp M st) dx in
  let b11 := a_div A ct dx in
  let m := p_person S u in
  let e0 := a_sub A (fst v) (a_mul A (S q_gain) (a_sub A (fst m) (fst y))) in
  let e1 := a_sub A (snd v) (a_mul A (S q_gain) (a_sub A (snd m) (snd y))) in
  MkDC (a_add A (a_mul A b00 e0) (a_mul A b01 e1)) (a_add A (a_mul A b10 e0) (a_mul A b11 e1)) (c0 A).
(** src/PersonFollowingController.cpp:345, one coordinate. *)
Definition p_mix (b i o : N) : N := a_add A (a_mul A b i) (a_mul A (a_sub A (c1 A) b) o).
(** src/PersonFollowingController.cpp:302-348; [th] is std::tanh. *)
Definition p_free (th : N -> N) (S : field -> N) (E : cut N) (l : list (qpoint N)) (t : N) (u : dpose N) : option ((N * N) * (N * N)) :=
  match q_desired A l t with
  | None => None
  | Some (y, v) =>
      if cut_skip E y u then Some (y, v)
      else let o := cut_outer E y u in let i := cut_inner E y u in
           let b := th (a_mul A (S q_cons) (cut_bf E y u)) in
           Some ((p_mix b (fst i) (fst o), p_mix b (snd i) (snd o)), v)
  end.
(** src/PersonFollowingController.cpp:58-98, feedback and control; the settings and the trajectory do not change meanwhile. *)
Definition p_ctl (th : N -> N) (S : field -> N) (E : cut N) (l : list (qpoint N)) (k : unit) (t : N) (u : dpose N) : option (unit * dcmd N) :=
  match p_free th S E l t u with None => None | Some (y, v) => Some (k, p_law S y v u) end.
End Person.
Arguments no_cut {N}. Arguments p_person {N}. Arguments p_law {N}. Arguments p_mix {N}. Arguments p_free {N}. Arguments p_ctl {N}.
