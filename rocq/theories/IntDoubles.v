(** The pose the planner reads from the integrated unicycle, over a parameter arithmetic: src/UnicyclePlanner.cpp:290-308 and 984-997. *)
From Coq Require Import Reals ZArith List Bool.
From Verif Require Import Prelude Doubles CtrlDoubles UniDoubles PersonDoubles.
Import ListNotations.

Section Int.
Variable N : Type.
Variable A : arith N.
Variable M : maths N.

(** The poses of an integration, the initial one first; [None] when the controller fails. *)
Section Trace.
Variable K : Type.
Variable ctl : K -> N -> dpose N -> option (K * dcmd N).
Variable S : field -> N.
Fixpoint u_trace (k : K) (u : dpose N) (steps : list (N * N)) : option (list (dpose N)) :=
  match steps with
  | [] => Some [u]
  | (t, h) :: r => match ctl k t u with
                   | None => None
                   | Some (k', raw) => match u_trace k' (u_euler A M u (d_control A M S raw) h) r with None => None | Some tr => Some (u :: tr) end
                   end
  end.
End Trace.

(** src/UnicyclePlanner.cpp:290-308.  [sol] is getFullSolution() of the external integrator, times and states; [h] is maximumStepSize().
    [dbg]: the assertions are compiled in.  [UB]: front() of an empty vector, a failed assertion (the program is aborted), or the
    conversion of a negative or huge number to size_t.  It never returns false. *)
Definition i_solution (dbg : bool) (h : N) (sol : list (N * dpose N)) (t : N) : res (dpose N) :=
  match sol with
  | [] => UB
  | (t0, u0) :: _ =>
      if dbg && negb (a_le A t0 t && a_le A t (fst (last sol (t0, u0)))) then UB
      else match a_round A (a_div A (a_sub A t t0) h) with
           | Ok j => Ok (snd (nth (Nat.min j (length sol - 1)) sol (t0, u0)))
           | _ => UB
           end
  end.
(** src/UnicyclePlanner.cpp:984-997, getPersonPosition ([Fail]: returned false). *)
Definition i_person (dbg : bool) (S : field -> N) (sol : list (N * dpose N)) (t : N) : res (N * N) :=
  match i_solution dbg (S q_intStep) sol t with Ok u => Ok (p_person A M S u) | Fail => Fail | UB => UB end.
End Int.
Arguments u_trace {N} A M {K}. Arguments i_solution {N}. Arguments i_person {N}.
