(** The phase computation of UnicycleGenerator over the arithmetic of Doubles.v.  Only the impact times and the names
    of the steps matter. *)
From Coq Require Import String Reals ZArith List Bool.
From Verif Require Import Prelude Rounding FootPrint GenPhases RoundedGen Doubles.
Import ListNotations.

(** A pointer of [orderedSteps]: foot ([true] = left), index, impact time and name of the step; see [tstep]. *)
Record nstep (N : Type) : Type := MkN { n_left : bool; n_idx : nat; n_time : N; n_name : string }.
Arguments MkN {N}. Arguments n_left {N}. Arguments n_idx {N}. Arguments n_time {N}. Arguments n_name {N}.
(** A foot print: impact times and names of the steps, name of the foot print. *)
Record nfoot (N : Type) : Type := MkNF { nf_steps : list (N * string); nf_name : string }.
Arguments MkNF {N}. Arguments nf_steps {N}. Arguments nf_name {N}.

Section Gen.
Variable N : Type.
Variable A : arith N.
(** Settings of the generator and the flag of setPauseActive. *)
Variable S : field -> N.
Variable pause : bool.

(** Variables of createPhasesTimings; see [cpst]. *)
Record ncp : Type := MkNC {
  x_lp : list phase; x_rp : list phase; x_shift : list nat; x_cur : nat; x_merge : list nat;
  x_li : nat; x_ri : nat; x_prev : N; x_lastLeft : option bool; x_ub : bool }.

(** src/FootPrint.cpp:23-45, addStep: the part concerning the time. *)
Definition n_addStep (t : N) (f : nfoot N) : nfoot N * bool :=
  if below0 A t then (f, false) else (MkNF (nf_steps f ++ [(t, nf_name f)]) (nf_name f), true).

Fixpoint n_tag (lf : bool) (i : nat) (l : list (N * string)) : list (nstep N) :=
  match l with [] => [] | (t, n) :: r => MkN lf i t n :: n_tag lf (Datatypes.S i) r end.
Definition n_all (l r : list (N * string)) : list (nstep N) := n_tag true 0 l ++ n_tag false 0 r.

Fixpoint n_adjacent (l : list (nstep N)) : bool :=
  match l with
  | a :: ((b :: _) as r) => a_eq A (n_time a) (n_time b) || n_adjacent r
  | _ => false
  end.
(** src/UnicycleGenerator.cpp:49-80, orderSteps; see [order_steps]. *)
Definition n_order (srt : list (nstep N)) : res (list (nstep N)) :=
  match srt with
  | [] => Ok []
  | [_] => UB
  | a :: b :: tl =>
      if n_adjacent tl then Fail
      else match tl with
           | c :: _ => if a_eq A (n_time a) (n_time b) && String.eqb (n_name b) (n_name c)
                       then Ok (b :: a :: tl) else Ok (a :: b :: tl)
           | [] => Ok (a :: b :: tl)
           end
  end.

(** src/UnicycleGenerator.cpp:394 and 127. *)
Definition n_swing : N := a_sub A (S q_nomStep) (a_mul A (S q_share) (S q_nomStep)).
(** src/UnicycleGenerator.cpp:140-148. *)
Definition n_switch (isFirst sameFront : bool) (stepTime : N) : N :=
  if isFirst && negb sameFront then
    a_div A (a_mul A (a_div A (S q_share) (a_sub A (a_q A 1 1) (a_div A (S q_share) (a_q A 2 1)))) stepTime) (a_q A 2 1)
  else if pause && a_lt A (S q_maxStep) stepTime then a_sub A stepTime n_swing
  else a_mul A (S q_share) stepTime.
(** src/UnicycleGenerator.cpp:170-171. *)
Definition n_offset (switchTime ratio dT : N) : res nat :=
  a_round A (a_div A (a_mul A switchTime (a_sub A (a_q A 1 1) ratio)) dT).

(** src/UnicycleGenerator.cpp:131-187, one iteration; see [cp_step]. *)
Definition n_step1 (dT : N) (nl nr : nat) (sameFront : bool) (k : nat) (nx : nstep N) (s : ncp) : res ncp :=
  let stepTime := a_sub A (n_time nx) (x_prev s) in
  if below0 A stepTime then Fail
  else
    let switchTime := n_switch (Nat.eqb k 2) sameFront stepTime in
    do stepSamples <- a_round A (a_div A stepTime dT);
    do switchSamples <- a_round A (a_div A switchTime dT);
    do swingSamples <- sub_size stepSamples switchSamples;
    let isLeft := n_left nx && Nat.eqb (n_idx nx) (x_li s) in
    let isRight := negb (n_left nx) && Nat.eqb (n_idx nx) (x_ri s) in
    let ub := x_ub s || Nat.leb nl (x_li s) || (negb isLeft && Nat.leb nr (x_ri s)) in
    if negb isLeft && negb isRight then Fail
    else
      let endSwitchIdx := (x_cur s + switchSamples)%nat in
      do mp <- (if Nat.eqb k 2 then Ok []
                else
                  do offB <- n_offset switchTime (S q_mergeB) dT;
                  do offE <- n_offset switchTime (S q_mergeE) dT;
                  do mi <- sub_size endSwitchIdx offB;
                  do mf <- sub_size endSwitchIdx offE;
                  Ok (range_incl mi mf));
      let swingPh := repeat SwitchOut switchSamples ++ repeat Swing swingSamples in
      let stancePh := repeat SwitchIn switchSamples ++ repeat Stance swingSamples in
      Ok (MkNC (x_lp s ++ (if isLeft then swingPh else stancePh))
               (x_rp s ++ (if isLeft then stancePh else swingPh))
               (x_shift s ++ [endSwitchIdx; (endSwitchIdx + swingSamples)%nat])
               (endSwitchIdx + swingSamples)%nat
               (x_merge s ++ mp)
               (if isLeft then Datatypes.S (x_li s) else x_li s)
               (if isLeft then x_ri s else Datatypes.S (x_ri s))
               (a_add A (x_prev s) (a_mul A (a_size A stepSamples) dT))
               (Some isLeft) ub).

Fixpoint n_loop (dT : N) (nl nr : nat) (sameFront : bool) (k : nat) (l : list (nstep N)) (s : ncp) : res ncp :=
  match l with
  | [] => Ok s
  | nx :: r => do s' <- n_step1 dT nl nr sameFront k nx s; n_loop dT nl nr sameFront (Datatypes.S k) r s'
  end.

(** src/UnicycleGenerator.cpp:82-199, createPhasesTimings; see [create_phases]. *)
Definition n_create (dT init : N) (nl nr : nat) (fl fr : N) (ord : list (nstep N)) : res phases :=
  match ord with
  | [_; _] =>
      do es <- a_round A (a_div A (S q_terminal) dT);
      let swingPh := repeat SwitchIn es in
      let stancePh := repeat SwitchOut es in
      let leftSwing := a_lt A fr fl in
      Ok (MkPh (if leftSwing then swingPh else stancePh) (if leftSwing then stancePh else swingPh)
               [0%nat; es] (0%nat :: seq 1 (es - 1)) false)
  | _ :: b :: tl =>
      let total := a_add A (a_sub A (n_time (last tl b)) init) (S q_terminal) in
      do _ <- a_ceil A (a_div A total dT);
      do s <- n_loop dT nl nr (a_eq A fl fr) 2 tl (MkNC [] [] [0%nat] 0 [0%nat] 1 1 init None false);
      do es <- a_round A (a_div A (S q_terminal) dT);
      let lastLeft := match x_lastLeft s with Some b => b | None => true end in
      let fin := (x_cur s + es)%nat in
      do mlast <- sub_size fin 1;
      Ok (MkPh (x_lp s ++ repeat (if lastLeft then SwitchIn else SwitchOut) es)
               (x_rp s ++ repeat (if lastLeft then SwitchOut else SwitchIn) es)
               (x_shift s ++ [fin]) (x_merge s ++ [mlast]) (x_ub s))
  | _ => UB
  end.

(** src/UnicycleGenerator.cpp:357-411, up to the phases; [std::max(a, b)] is [a < b ? b : a].  [srt] is the result of
    std::sort on [n_all].  See [generate_phases]. *)
Definition n_generate (left right : nfoot N) (init dT : N) (srt : list (nstep N)) : res (list (nstep N) * phases) :=
  if Nat.ltb (length (nf_steps left)) 1 then Fail
  else if Nat.ltb (length (nf_steps right)) 1 then Fail
  else if String.eqb (nf_name left) (nf_name right) then Fail
  else if atmost0 A dT then Fail
  else match nf_steps left, nf_steps right with
       | (tl, _) :: _, (tr, _) :: _ =>
           if a_lt A init (if a_lt A tl tr then tr else tl) then Fail
           else
             do ord <- n_order srt;
             do ph <- n_create dT init (length (nf_steps left)) (length (nf_steps right)) tl tr ord;
             Ok (ord, ph)
       | _, _ => Fail
       end.
End Gen.
Arguments n_generate {N}. Arguments n_create {N}. Arguments n_loop {N}. Arguments n_step1 {N}. Arguments n_order {N}.
Arguments n_adjacent {N}. Arguments n_switch {N}. Arguments n_swing {N}. Arguments n_offset {N}. Arguments n_tag {N}.
Arguments n_all {N}. Arguments n_addStep {N}.
Arguments MkNC {N}. Arguments x_lp {N}. Arguments x_rp {N}. Arguments x_shift {N}. Arguments x_cur {N}. Arguments x_merge {N}.
Arguments x_li {N}. Arguments x_ri {N}. Arguments x_prev {N}. Arguments x_lastLeft {N}. Arguments x_ub {N}.
