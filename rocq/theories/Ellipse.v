(** Model of src/FreeSpaceEllipse.cpp. *)
From Coq Require Import Reals Lra List Bool.
From Verif Require Import Prelude.
Open Scope R_scope.

(** [iDynTree::MatrixFixSize<2,2>]. *)
Record mat2 : Type := M2 { m00 : R; m01 : R; m10 : R; m11 : R }.

Definition mapply (m : mat2) (v : vec2) : vec2 :=
  V2 (m00 m * vx v + m01 m * vy v) (m10 m * vx v + m11 m * vy v).
Definition mdet (m : mat2) : R := m00 m * m11 m - m01 m * m10 m.
(** Eigen's inverse of a 2x2 matrix: adjugate divided by the determinant. *)
Definition minv (m : mat2) : mat2 :=
  M2 (m11 m / mdet m) (- m01 m / mdet m) (- m10 m / mdet m) (m00 m / mdet m).

(** [std::atan2] on reals (C++ standard library; sign of zero not modelled). *)
Definition atan2 (y x : R) : R :=
  if Rlt_dec 0 x then atan (y / x)
  else if Rlt_dec x 0 then (if Rle_dec 0 y then atan (y / x) + PI else atan (y / x) - PI)
  else if Rlt_dec 0 y then PI / 2
  else if Rlt_dec y 0 then - (PI / 2)
  else 0.

(** include/FreeSpaceEllipse.h:17-24, members. *)
Record ell : Type := MkEll {
  e_C : mat2; e_Ci : mat2; e_d : vec2; e_a : R; e_b : R; e_th : R; e_set : bool
}.

(** src/FreeSpaceEllipse.cpp:361-370 (clear) and 173-176 (constructor). *)
Definition ell_clear : ell :=
  MkEll (M2 1 0 0 1) (M2 1 0 0 1) vzero 1 1 0 false.

(** 1e-10 and 1e-15, the thresholds used throughout the file. *)
Definition em10 : R := / 10 ^ 10.
Definition em15 : R := / 10 ^ 15.

(** src/FreeSpaceEllipse.cpp:48-79, setEllipse(a,b,theta,cx,cy). *)
Definition ell_set5 (a b th cx cy : R) (e : ell) : ell * bool :=
  if Rltb a em10 || Rltb b em10 then (e, false)
  else
    (* rotationMatrix * defaultC, lines 56-67 *)
    let C := M2 (cos th * a) (- sin th * b) (sin th * a) (cos th * b) in
    (MkEll C (minv C) (V2 cx cy) a b th true, true).

(** src/FreeSpaceEllipse.cpp:111-159, setEllipse(imageMatrix, centerOffset). *)
Definition ell_setM (C : mat2) (d : vec2) (e : ell) : ell * bool :=
  let det := mdet C in
  if Rltb det em10 then (e, false)
  else
    let th := atan2 (m10 C) (m00 C) in
    let s := sin th in
    let c := cos th in
    let '(a, b) :=
      if Rgtb (Rabs s) (Rabs c) then (m10 C / s, m01 C / s)
      else (m00 C / c, m11 C / c) in
    if Rgtb (Rabs (det - a * b)) em10 then (e, false)
    else (MkEll C (minv C) d a b th true, true).

(** src/FreeSpaceEllipse.cpp:161-166, computeGenerators. *)
Definition ell_gen (e : ell) (p : vec2) : vec2 := mapply (e_Ci e) (vsub p (e_d e)).

(** src/FreeSpaceEllipse.cpp:38-46, isPointInside; 168-171, generatorsModule. *)
Definition ell_inside (e : ell) (p : vec2) : bool :=
  if negb (e_set e) then true else Rleb (vnorm (ell_gen e p)) 1.

(** src/FreeSpaceEllipse.cpp:224-296: intersections of the line through two points with the unit
    circle ("ellipse space"). *)
Definition circle_line (p1 p2 : vec2) : option (vec2 * vec2) :=
  let alpha := vy p1 - vy p2 in
  let beta := vx p2 - vx p1 in
  let gamma := vx p1 * vy p2 - vx p2 * vy p1 in
  if Rltb (Rabs alpha) em15 && Rltb (Rabs beta) em15 then None
  else if Rltb (Rabs alpha) em15 then
    let y := - gamma / beta in
    if Rleb (Rabs y) 1 then
      let x := sqrt (1 - y * y) in Some (V2 x y, V2 (- x) y)
    else None
  else if Rltb (Rabs beta) em15 then
    let x := - gamma / alpha in
    if Rleb (Rabs x) 1 then
      let y := sqrt (1 - x * x) in Some (V2 x y, V2 x (- y))
    else None
  else
    let sigma := - alpha / beta in
    let delta := - gamma / beta in
    let aP := 1 + sigma * sigma in
    let bP := 2 * delta * sigma in
    let cP := delta * delta - 1 in
    let dis := bP * bP - 4 * aP * cP in
    if Rltb dis 0 then None
    else
      let x1 := (- bP + sqrt dis) / (2 * aP) in
      let x2 := (- bP - sqrt dis) / (2 * aP) in
      Some (V2 x1 (sigma * x1 + delta), V2 x2 (sigma * x2 + delta)).

(** src/FreeSpaceEllipse.cpp:299-300: back to the plane. *)
Definition ell_out (e : ell) (v : vec2) : vec2 := vadd (mapply (e_C e) v) (e_d e).

(** src/FreeSpaceEllipse.cpp:208-302, getIntersectionsWithLine ([None] = returned false; the output
    arguments are then untouched). *)
Definition ell_intersections (e : ell) (p1 p2 : vec2) : option (vec2 * vec2) :=
  if negb (e_set e) then None
  else match circle_line (ell_gen e p1) (ell_gen e p2) with
       | None => None
       | Some (i1, i2) => Some (ell_out e i1, ell_out e i2)
       end.

(** src/FreeSpaceEllipse.cpp:304-324, getClosestIntersectionsWithLine. *)
Definition ell_closest (e : ell) (p1 p2 : vec2) : option vec2 :=
  match ell_intersections e p1 p2 with
  | None => None
  | Some (i1, i2) =>
      if Rltb (vnorm (vsub p2 i1)) (vnorm (vsub p2 i2)) then Some i1 else Some i2
  end.

(** src/FreeSpaceEllipse.cpp:178-206, projectPointInsideEllipse. *)
Definition ell_project (e : ell) (test proj : vec2) : vec2 :=
  if negb (e_set e) then test
  else
    let g := ell_gen e test in
    let m := vnorm g in
    if Rleb m 1 then test
    else match ell_closest e proj test with
         | Some i => i
         | None => ell_out e (V2 (vx g / m) (vy g / m))
         end.

(** src/FreeSpaceEllipse.cpp:326-351, getTangentVector.  [R_pi_2(1,1)] is never written (line 332
    writes entry (0,0) twice); its value is the argument [garbage]. *)
Definition ell_tangent (garbage : R) (e : ell) (p : vec2) : vec2 :=
  let t := mapply (M2 0 (-1) 1 garbage) (ell_gen e p) in
  let v := mapply (e_C e) t in
  let n := vnorm v in
  if Rgtb n em15 then V2 (vx v / n) (vy v / n) else vzero.
