(** The weights of the feet of src/DCMTrajectoryGeneratorHelper.cpp over a parameter arithmetic. *)
From Coq Require Import Reals ZArith List Bool.
From Verif Require Import Prelude GenPhases Doubles CtrlDoubles.
Import ListNotations.

Section Weights.
Variable N : Type.
Variable A : arith N.
Variable M : maths N.
(** m_leftZMPDelta, m_rightZMPDelta. *)
Variables offL offR : N * N.

(** std::max(0.0, x) is [0.0 < x ? x : 0.0]; std::min(1.0, x) is [x < 1.0 ? x : 1.0]. *)
Definition w_max0 (x : N) : N := if a_lt A (c0 A) x then x else c0 A.
Definition w_min1 (x : N) : N := if a_lt A x (c1 A) then x else c1 A.
(** Eigen: difference and norm of vectors with two entries. *)
Definition w_sub (a b : N * N) : N * N := (a_sub A (fst a) (fst b), a_sub A (snd a) (snd b)).
Definition w_norm (a : N * N) : N := x_sqrt M (a_add A (a_mul A (fst a) (fst a)) (a_mul A (snd a) (snd a))).
(** src/DCMTrajectoryGeneratorHelper.cpp:863-869: ZMP of a foot on a step. *)
Definition w_foot (off : N * N) (s : dpose N) : N * N :=
  let c := x_cos M (d_th s) in let n := x_sin M (d_th s) in
  (a_sub A (a_add A (d_x s) (a_mul A c (fst off))) (a_mul A n (snd off)), a_add A (a_add A (d_y s) (a_mul A n (fst off))) (a_mul A c (snd off))).
(** src/DCMTrajectoryGeneratorHelper.cpp:872-877. *)
Definition w_share (zl zr z : N * N) : N := w_min1 (w_max0 (a_sub A (c1 A) (a_div A (w_norm (w_sub z zl)) (w_norm (w_sub zr zl))))).
(** src/DCMTrajectoryGeneratorHelper.cpp:877-878. *)
Definition w_pair (zl zr z : N * N) : N * N := let w := w_share zl zr z in (w, a_sub A (c1 A) w).

(** src/DCMTrajectoryGeneratorHelper.cpp:807-887, computeFeetWeight, over the boundaries [ends]; [zs]: the ZMP positions;
    [ls], [rs]: the steps from the current one on.  Reading outside a vector or a step list is undefined. *)
Fixpoint w_loop (lph : list phase) (zs : list (N * N)) (ends : list nat) (inst : nat) (ls rs : list (dpose N)) : res (list (N * N)) :=
  match ends with
  | [] => Ok []
  | e :: r =>
      match nth_error lph inst, ls, rs with
      | Some Stance, _, _ :: rs' =>
          if Nat.ltb (length zs) e then UB
          else match rs' with
               | [] => Fail
               | _ => do rest <- w_loop lph zs r (Nat.max inst e) ls rs'; Ok (repeat (c1 A, c0 A) (e - inst) ++ rest)
               end
      | Some Swing, _ :: ls', _ =>
          if Nat.ltb (length zs) e then UB
          else match ls' with
               | [] => Fail
               | _ => do rest <- w_loop lph zs r (Nat.max inst e) ls' rs; Ok (repeat (c0 A, c1 A) (e - inst) ++ rest)
               end
      | Some _, sl :: _, sr :: _ =>
          if Nat.ltb (length zs) e then UB
          else
            do rest <- w_loop lph zs r (Nat.max inst e) ls rs;
            Ok (map (w_pair (w_foot offL sl) (w_foot offR sr)) (firstn (e - inst) (skipn inst zs)) ++ rest)
      | _, _, _ => UB
      end
  end.
Definition w_compute (P : phases) (zs : list (N * N)) (ls rs : list (dpose N)) : res (list (N * N)) := w_loop (ph_left P) zs (tl (ph_shift P)) 0 ls rs.
End Weights.
Arguments w_max0 {N}. Arguments w_min1 {N}. Arguments w_sub {N}. Arguments w_norm {N}. Arguments w_foot {N}. Arguments w_share {N}. Arguments w_pair {N}.
Arguments w_loop {N}. Arguments w_compute {N}.
