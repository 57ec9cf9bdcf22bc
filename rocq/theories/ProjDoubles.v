(** Intersections of a line with the ellipse of the free space and projection of a point into it, over a parameter arithmetic:
    src/FreeSpaceEllipse.cpp:178-324.  Eigen's products and norms are sums of two products, not fused; its quotient of a vector
    and a number divides each component. *)
From Coq Require Import Reals ZArith List Bool.
From Verif Require Import Prelude Doubles CtrlDoubles StepDoubles EllDoubles.
Import ListNotations.

Section Proj.
Variable N : Type.
Variable A : arith N.
Variable M : maths N.

(** The image matrix (m_C) beside its inverse and the centre, include/FreeSpaceEllipse.h:17-24. *)
Record free : Type := MkFree { v_C : (N * N) * (N * N); v_inv : dell N }.

(** src/FreeSpaceEllipse.cpp:48-79 (setEllipse with semi-axes) and 361-370 (clear); [None] = no ellipse set. *)
Definition v_call (e : option free) (k : zcall N) : option free * bool :=
  match k with
  | ZSet a b th cx cy =>
    if a_lt A a (a_q A 1 10000000000) || a_lt A b (a_q A 1 10000000000) then (e, false)
    else (Some (MkFree (z_image A M a b th) (z_inverse A M (z_image A M a b th) (cx, cy))), true)
  | ZClear => (None, true)
  end.
Definition v_run (l : list (zcall N)) : option free := fold_left (fun e k => fst (v_call e k)) l None.

(** src/FreeSpaceEllipse.cpp:161-166 (computeGenerators); the same product is at 220-221. *)
Definition v_gen (e : free) (p : N * N) : N * N :=
  let z := v_inv e in let v := g_sub A p (z_d z) in
  (a_add A (a_mul A (z_00 z) (fst v)) (a_mul A (z_01 z) (snd v)), a_add A (a_mul A (z_10 z) (fst v)) (a_mul A (z_11 z) (snd v))).
(** src/FreeSpaceEllipse.cpp:197-198 and 299-300: back to the plane. *)
Definition v_out (e : free) (w : N * N) : N * N :=
  let '((p, q), (r, t)) := v_C e in
  (a_add A (a_add A (a_mul A p (fst w)) (a_mul A q (snd w))) (fst (z_d (v_inv e))),
   a_add A (a_add A (a_mul A r (fst w)) (a_mul A t (snd w))) (snd (z_d (v_inv e)))).

(** src/FreeSpaceEllipse.cpp:168-171, 313-314: Eigen's norm. *)
Definition v_norm (w : N * N) : N := x_sqrt M (a_add A (a_mul A (fst w) (fst w)) (a_mul A (snd w) (snd w))).
(** 1e-15. *)
Definition v_tiny : N := a_q A 1 1000000000000000.
(** src/FreeSpaceEllipse.cpp:223-225: the line [alpha x + beta y + gamma = 0] through two points of the ellipse space. *)
Definition v_alpha (p1 p2 : N * N) : N := a_sub A (snd p1) (snd p2).
Definition v_beta (p1 p2 : N * N) : N := a_sub A (fst p2) (fst p1).
Definition v_gamma (p1 p2 : N * N) : N := a_sub A (a_mul A (fst p1) (snd p2)) (a_mul A (fst p2) (snd p1)).
(** src/FreeSpaceEllipse.cpp:238-270: the coordinate common to both points of a line along an axis, and the other one. *)
Definition v_axis (common : N) : option (N * N) :=
  if a_le A (a_abs A common) (c1 A) then Some (common, x_sqrt M (a_sub A (c1 A) (a_mul A common common))) else None.
(** src/FreeSpaceEllipse.cpp:271-295: the line [y = sigma x + delta]. *)
Definition v_slanted (sigma delta : N) : option ((N * N) * (N * N)) :=
  let two := a_q A 2 1 in
  let aP := a_add A (c1 A) (a_mul A sigma sigma) in
  let bP := a_mul A (a_mul A two delta) sigma in
  let cP := a_sub A (a_mul A delta delta) (c1 A) in
  let dis := a_sub A (a_mul A bP bP) (a_mul A (a_mul A (a_q A 4 1) aP) cP) in
  if a_lt A dis (c0 A) then None
  else let x1 := a_div A (a_add A (x_opp M bP) (x_sqrt M dis)) (a_mul A two aP) in
       let x2 := a_div A (a_sub A (x_opp M bP) (x_sqrt M dis)) (a_mul A two aP) in
       Some ((x1, a_add A (a_mul A sigma x1) delta), (x2, a_add A (a_mul A sigma x2) delta)).
(** src/FreeSpaceEllipse.cpp:223-296. *)
Definition v_circle (p1 p2 : N * N) : option ((N * N) * (N * N)) :=
  let alpha := v_alpha p1 p2 in let beta := v_beta p1 p2 in let gamma := v_gamma p1 p2 in
  if a_lt A (a_abs A alpha) v_tiny && a_lt A (a_abs A beta) v_tiny then None
  else if a_lt A (a_abs A alpha) v_tiny then
    match v_axis (a_div A (x_opp M gamma) beta) with Some (y, x) => Some ((x, y), (x_opp M x, y)) | None => None end
  else if a_lt A (a_abs A beta) v_tiny then
    match v_axis (a_div A (x_opp M gamma) alpha) with Some (x, y) => Some ((x, y), (x, x_opp M y)) | None => None end
  else v_slanted (a_div A (x_opp M alpha) beta) (a_div A (x_opp M gamma) beta).
(** src/FreeSpaceEllipse.cpp:208-302, getIntersectionsWithLine. *)
Definition v_intersections (e : option free) (p1 p2 : N * N) : option ((N * N) * (N * N)) :=
  match e with
  | None => None
  | Some z => match v_circle (v_gen z p1) (v_gen z p2) with Some (i1, i2) => Some (v_out z i1, v_out z i2) | None => None end
  end.
(** src/FreeSpaceEllipse.cpp:304-324, getClosestIntersectionsWithLine. *)
Definition v_closest (e : option free) (p1 p2 : N * N) : option (N * N) :=
  match v_intersections e p1 p2 with
  | None => None
  | Some (i1, i2) => Some (if a_lt A (v_norm (g_sub A p2 i1)) (v_norm (g_sub A p2 i2)) then i1 else i2)
  end.
(** src/FreeSpaceEllipse.cpp:194: the generators over their norm. *)
Definition v_unit (g : N * N) : N * N := (a_div A (fst g) (v_norm g), a_div A (snd g) (v_norm g)).
(** src/FreeSpaceEllipse.cpp:178-206, projectPointInsideEllipse. *)
Definition v_project (e : option free) (test proj : N * N) : N * N :=
  match e with
  | None => test
  | Some z =>
    if a_le A (v_norm (v_gen z test)) (c1 A) then test
    else match v_closest e proj test with Some i => i | None => v_out z (v_unit (v_gen z test)) end
  end.
End Proj.
Arguments MkFree {N}. Arguments v_C {N}. Arguments v_inv {N}. Arguments v_call {N}. Arguments v_run {N}. Arguments v_gen {N}. Arguments v_out {N}.
Arguments v_tiny {N}. Arguments v_norm {N}. Arguments v_alpha {N}. Arguments v_beta {N}. Arguments v_gamma {N}. Arguments v_axis {N}. Arguments v_slanted {N}. Arguments v_circle {N}.
Arguments v_intersections {N}. Arguments v_closest {N}. Arguments v_unit {N}. Arguments v_project {N}.
