(** What a user relies on for the choice of the landing time in doubles: the least cost among the samples examined. *)
From Coq Require Import Reals ZArith List Bool.
From Flocq Require Import Core IEEE754.BinarySingleNaN.
From Verif Require Import Prelude FootPrint Doubles DoublesSpec CtrlDoubles TimedPlan StepDoubles StepDoublesSpec.
Import ListNotations.

Section Least.
Variable P : Type.
Variable c : tcfg f64.
Variable o : geo f64 P.
(** The state [s] of the search examines a landing at its time, which is accepted with [cost]: the step lasts long enough, the
    swing foot has moved, the duration without pauses is positive and not above the maximum, and it is not the end. *)
Record examined (s : tst f64 P) (cost : f64) : Prop := MkExamined {
  ex_min : le64 (c_min c) (fsub (t_t s) (snd (t_prev s)));
  ex_off : lt64 (fadd (c_init c) (t_off s)) (t_t s);
  ex_moved : o_tiny o (t_sw s) (t_left s) (t_right s) (t_t s) = false;
  ex_max : Bltb (c_max c) (fsub (fsub (t_t s) (snd (t_prev s))) (t_pause s)) = false;
  ex_end : Beqb (t_t s) (c_end c) = false;
  ex_dur : lt64 fzero (fsub (fsub (t_t s) (snd (t_prev s))) (t_pause s));
  ex_ok : o_cand o (t_sw s) (t_left s) (t_right s) (t_prev s) (t_t s) (fsub (fsub (t_t s) (snd (t_prev s))) (t_pause s)) = Some (Some cost) }.
(** No step is taken from [s] to [s']. *)
Definition no_step (s s' : tst f64 P) : Prop := t_left s' = t_left s /\ t_right s' = t_right s.
(** The step [x] of the swing foot is taken from [s] to [s']. *)
Definition takes (s s' : tst f64 P) (x : P * f64) : Prop :=
  t_left s' = (if t_sw s then t_left s ++ [x] else t_left s) /\ t_right s' = (if t_sw s then t_right s else t_right s ++ [x]).
(** A run of the search up to state [n]. *)
Definition traced (st : nat -> tst f64 P) (n : nat) : Prop :=
  forall i, (i < n)%nat -> le64 (t_t (st i)) (c_end c) /\ t_iter ieee c o (st i) = Ok (st (S i)).
(** The state in which the search begins, with the last step [prev] of the stance foot. *)
Definition begins (l r : list (P * f64)) (sw first : bool) (prev : P * f64) : tst f64 P :=
  MkTS l r sw (c_init c) fm1 (a_q ieee 10000000000 1) (fsub (c_init c) (snd prev)) (if first then c_nom c else fzero) prev.
(** The states from [m] to [n] are those between two steps: the one taken at [n] and the one taken just before [m], if any. *)
Definition between (st : nat -> tst f64 P) (m n : nat) : Prop :=
  (m <= n)%nat /\ (m = O \/ exists m', m = S m' /\ ~ no_step (st m') (st m)) /\ (forall i, (m <= i < n)%nat -> no_step (st i) (st (S i))) /\ ~ no_step (st n) (st (S n)).
(** The step [x] taken at [n] is the examined sample of least cost, the last one of those with that cost; without a sample it is
    next to the other foot. *)
Definition least (st : nat -> tst f64 P) (m n : nat) (x : P * f64) : Prop :=
  (exists i cost, (m <= i < n)%nat /\ examined (st i) cost /\ snd x = t_t (st i)
     /\ o_pose o (t_sw (st n)) (t_left (st n)) (t_right (st n)) (snd x) = Some (fst x)
     /\ forall j cost', (m <= j < n)%nat -> examined (st j) cost' -> le64 cost cost' /\ ((i < j)%nat -> lt64 cost cost'))
  \/ ((forall j cost', (m <= j < n)%nat -> ~ examined (st j) cost') /\ snd x = t_t (st n) /\ o_par o (t_sw (st n)) (t_left (st n)) (t_right (st n)) = Some (fst x)).
End Least.
Arguments examined {P}. Arguments no_step {P}. Arguments takes {P}. Arguments traced {P}. Arguments begins {P}. Arguments between {P}. Arguments least {P}.

(** The cost of a landing: weight of the time over the square of the duration, and weight of the position times the square of the
    distance from the other foot. *)
Open Scope R_scope.
Definition landing64 (S : field -> f64) (dt : f64) (a b : f64 * f64) : R :=
  f2r (S q_timeW) / (f2r dt * f2r dt) + f2r (S q_posW) * (apart a b * apart a b).
(** Rounding of the cost. *)
Definition cost_slack (S : field -> f64) : R := (f2r (S q_timeW) + f2r (S q_posW) + 1) * bpow radix2 (-500).
(** The exact cost of the landing that a state of the search examines, on the trajectory [sol] with the feet placed by [foot]. *)
Definition landing_of (S : field -> f64) (foot : bool -> dpose f64 -> dpose f64) (sol : f64 -> dpose f64) (s : tst f64 (dpose f64)) : R :=
  landing64 S (fsub (fsub (t_t s) (snd (t_prev s))) (t_pause s)) (spot (fst (t_prev s))) (spot (foot (t_sw s) (sol (t_t s)))).
