(** The ellipse of the free space over a parameter arithmetic: src/FreeSpaceEllipse.cpp, the setter with semi-axes and the test of a
    point ([k_inside] in StepDoubles.v).  Eigen's product of 2x2 matrices is a sum of two products, its inverse is the adjugate
    times the inverse of the determinant; sums are not fused with products. *)
From Coq Require Import Reals ZArith List Bool.
From Verif Require Import Prelude Doubles CtrlDoubles StepDoubles.
Import ListNotations.

Section Ell.
Variable N : Type.
Variable A : arith N.
Variable M : maths N.

(** src/FreeSpaceEllipse.cpp:56-67, rotationMatrix * defaultC, row by row. *)
Definition z_image (a b th : N) : (N * N) * (N * N) :=
  let c := x_cos M th in let s := x_sin M th in let o := c0 A in
  ((a_add A (a_mul A c a) (a_mul A (x_opp M s) o), a_add A (a_mul A c o) (a_mul A (x_opp M s) b)),
   (a_add A (a_mul A s a) (a_mul A c o), a_add A (a_mul A s o) (a_mul A c b))).
(** Eigen's inverse, line 68. *)
Definition z_inverse (m : (N * N) * (N * N)) (d : N * N) : dell N :=
  let '((p, q), (r, t)) := m in
  let inv := a_div A (c1 A) (a_sub A (a_mul A p t) (a_mul A r q)) in
  MkDE (a_mul A t inv) (a_mul A (x_opp M q) inv) (a_mul A (x_opp M r) inv) (a_mul A p inv) d.
(** src/FreeSpaceEllipse.cpp:48-79, setEllipse(a, b, theta, centerOffsetX, centerOffsetY), and clear, 361-370. *)
Inductive zcall := ZSet (a b th cx cy : N) | ZClear.
Definition z_call (e : option (dell N)) (k : zcall) : option (dell N) * bool :=
  match k with
  | ZSet a b th cx cy =>
    if a_lt A a (a_q A 1 10000000000) || a_lt A b (a_q A 1 10000000000) then (e, false)
    else (Some (z_inverse (z_image a b th) (cx, cy)), true)
  | ZClear => (None, true)
  end.
(** Any history of calls on a new object. *)
Definition z_run (l : list zcall) : option (dell N) := fold_left (fun e k => fst (z_call e k)) l None.
End Ell.
Arguments z_image {N}. Arguments z_inverse {N}. Arguments z_call {N}. Arguments z_run {N}. Arguments ZSet {N}. Arguments ZClear {N}.
