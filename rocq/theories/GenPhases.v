(** Model of the phase computation of src/UnicycleGenerator.cpp: orderSteps, createPhasesTimings,
    contact vectors, settings. *)
From Coq Require Import String Reals Lra Lia ZArith List Bool.
From Verif Require Import Prelude Rounding FootPrint.
Import ListNotations.
Open Scope R_scope.

(** include/StepPhase.h. *)
Inductive phase : Type := Stance | SwitchIn | SwitchOut | Swing.

(** An element of [orderedSteps] is a pointer into one of the two step lists: foot ([true] = left),
    index in that list, and the pointed-to step. *)
Record tstep : Type := MkT { t_left : bool; t_idx : nat; t_step : step }.

Fixpoint tag_from (lf : bool) (i : nat) (l : list step) : list tstep :=
  match l with
  | [] => []
  | s :: r => MkT lf i s :: tag_from lf (S i) r
  end.

(** src/UnicycleGenerator.cpp:57-60: all steps of the left foot, then all of the right foot. *)
Definition all_steps (l r : list step) : list tstep := tag_from true 0 l ++ tag_from false 0 r.

(** src/UnicycleGenerator.cpp:64-65, [std::adjacent_find] for equal impact times. *)
Fixpoint adjacent_equal (l : list tstep) : bool :=
  match l with
  | a :: ((b :: _) as r) => Reqb (st_time (t_step a)) (st_time (t_step b)) || adjacent_equal r
  | _ => false
  end.

(** src/UnicycleGenerator.cpp:49-80, orderSteps.  [srt] is the result of [std::sort] on [all_steps];
    it is not unique when impact times coincide, so it is an argument.  [begin()+2] needs at least two
    elements. *)
Definition order_steps (srt : list tstep) : res (list tstep) :=
  match srt with
  | [] => Ok []
  | [_] => UB
  | a :: b :: tl =>
      if adjacent_equal tl then Fail
      else match tl with
           | c :: _ =>
               if Reqb (st_time (t_step a)) (st_time (t_step b))
                  && String.eqb (st_name (t_step b)) (st_name (t_step c))
               then Ok (b :: a :: tl) else Ok (a :: b :: tl)
           | [] => Ok (a :: b :: tl)
           end
  end.

(** Settings of UnicycleGeneratorImplementation, src/UnicycleGenerator.cpp:32-37. *)
Record gset : Type := MkG {
  g_switchPct : R; g_endSwitch : R; g_maxStep : R; g_nomStep : R;
  g_pause : bool; g_mrBegin : R; g_mrEnd : R
}.

(** Defaults, src/UnicycleGenerator.cpp:32-37. *)
Definition gset_new : gset := MkG (1/2) 1 10 2 true (1/2) (1/2).

(** src/UnicycleGenerator.cpp:550-561. *)
Definition set_switchRatio (ratio : R) (g : gset) : gset * bool :=
  if Rleb ratio 0 then (g, false)
  else (MkG (ratio / (1 + ratio)) (g_endSwitch g) (g_maxStep g) (g_nomStep g) (g_pause g) (g_mrBegin g) (g_mrEnd g), true).
(** src/UnicycleGenerator.cpp:563-574. *)
Definition set_terminalSwitch (t : R) (g : gset) : gset * bool :=
  if Rleb t 0 then (g, false)
  else (MkG (g_switchPct g) t (g_maxStep g) (g_nomStep g) (g_pause g) (g_mrBegin g) (g_mrEnd g), true).
(** src/UnicycleGenerator.cpp:576-579 and 665-668 (with [false]). *)
Definition set_pauseActive (b : bool) (g : gset) : gset :=
  MkG (g_switchPct g) (g_endSwitch g) (g_maxStep g) (g_nomStep g) b (g_mrBegin g) (g_mrEnd g).
(** src/UnicycleGenerator.cpp:581-604. *)
Definition set_pauseConditions (mx nom : R) (g : gset) : gset * bool :=
  if Rltb mx 0 then (g, false)
  else if Rleb nom 0 then (g, false)
  else if Rgtb nom mx then (g, false)
  else (MkG (g_switchPct g) (g_endSwitch g) mx nom (g_pause g) (g_mrBegin g) (g_mrEnd g), true).
(** src/UnicycleGenerator.cpp:606-632. *)
Definition set_mergeRatio (b e : R) (g : gset) : gset * bool :=
  if Rltb b 0 || Rgtb b 1 then (g, false)
  else if Rltb e 0 || Rgtb e 1 then (g, false)
  else if Rgtb b e then (g, false)
  else (MkG (g_switchPct g) (g_endSwitch g) (g_maxStep g) (g_nomStep g) (g_pause g) b e, true).

Inductive gop : Type :=
| GoSwitch (r : R) | GoTerminal (t : R) | GoPauseActive (b : bool) | GoPause (mx nom : R)
| GoMerge (b e : R) | GoDisablePause.

Definition gset_run (g : gset) (o : gop) : gset :=
  match o with
  | GoSwitch r => fst (set_switchRatio r g)
  | GoTerminal t => fst (set_terminalSwitch t g)
  | GoPauseActive b => set_pauseActive b g
  | GoPause m n => fst (set_pauseConditions m n g)
  | GoMerge b e => fst (set_mergeRatio b e g)
  | GoDisablePause => set_pauseActive false g
  end.

(** Whether a call of a setter returns [true] ([void] ones always "succeed"). *)
Definition gset_ok (g : gset) (o : gop) : bool :=
  match o with
  | GoSwitch r => snd (set_switchRatio r g)
  | GoTerminal t => snd (set_terminalSwitch t g)
  | GoPause m n => snd (set_pauseConditions m n g)
  | GoMerge b e => snd (set_mergeRatio b e g)
  | _ => true
  end.

(** Variables of createPhasesTimings.  [c_cur] caches [phaseShift.back()].
    [c_ub]: an element past the end of a step list was addressed (line 155/159). *)
Record cpst : Type := MkCP {
  c_lp : list phase; c_rp : list phase;
  c_shift : list nat; c_cur : nat;
  c_merge : list nat;
  c_li : nat; c_ri : nat;
  c_prev : R;
  c_lastLeft : option bool;
  c_ub : bool
}.

(** src/UnicycleGenerator.cpp:177-178: all indices from [a] to [b]. *)
Definition range_incl (a b : nat) : list nat := seq a (S b - a).

(** src/UnicycleGenerator.cpp:140-148, duration of the switch phase. *)
Definition switch_time (g : gset) (nominalSwing : R) (isFirst sameFront : bool) (stepTime : R) : R :=
  if isFirst && negb sameFront then
    (g_switchPct g / (1 - g_switchPct g / 2) * stepTime) / 2
  else if g_pause g && Rgtb stepTime (g_maxStep g) then stepTime - nominalSwing
  else g_switchPct g * stepTime.

(** src/UnicycleGenerator.cpp:131-187, one iteration. [k] is orderedStepIndex; [nl], [nr] the sizes of
    the step lists; [sameFront]: the first impact times of the feet coincide (line 140).
    [&(list[idx])] with [idx] beyond the end is undefined; the model follows the behaviour of deque
    implementations (an address different from every step) and records it in [c_ub]. *)
Definition cp_step (g : gset) (dT nominalSwing : R) (nl nr : nat) (sameFront : bool) (k : nat)
  (nx : tstep) (s : cpst) : res cpst :=
  let stepTime := st_time (t_step nx) - c_prev s in
  if Rltb stepTime 0 then Fail
  else
    let switchTime := switch_time g nominalSwing (Nat.eqb k 2) sameFront stepTime in
    do stepSamples <- size_round (stepTime / dT);
    do switchSamples <- size_round (switchTime / dT);
    do swingSamples <- sub_size stepSamples switchSamples;
    let isLeft := t_left nx && Nat.eqb (t_idx nx) (c_li s) in
    let isRight := negb (t_left nx) && Nat.eqb (t_idx nx) (c_ri s) in
    let ub := c_ub s || Nat.leb nl (c_li s) || (negb isLeft && Nat.leb nr (c_ri s)) in
    if negb isLeft && negb isRight then Fail
    else
      let endSwitchIdx := (c_cur s + switchSamples)%nat in
      do mp <- (if Nat.eqb k 2 then Ok []
                else
                  do offB <- size_round (switchTime * (1 - g_mrBegin g) / dT);
                  do offE <- size_round (switchTime * (1 - g_mrEnd g) / dT);
                  do mi <- sub_size endSwitchIdx offB;
                  do mf <- sub_size endSwitchIdx offE;
                  Ok (range_incl mi mf));
      let swingPh := repeat SwitchOut switchSamples ++ repeat Swing swingSamples in
      let stancePh := repeat SwitchIn switchSamples ++ repeat Stance swingSamples in
      Ok (MkCP (c_lp s ++ (if isLeft then swingPh else stancePh))
               (c_rp s ++ (if isLeft then stancePh else swingPh))
               (c_shift s ++ [endSwitchIdx; (endSwitchIdx + swingSamples)%nat])
               (endSwitchIdx + swingSamples)%nat
               (c_merge s ++ mp)
               (if isLeft then S (c_li s) else c_li s)
               (if isLeft then c_ri s else S (c_ri s))
               (c_prev s + INR stepSamples * dT)
               (Some isLeft) ub).

Fixpoint cp_loop (g : gset) (dT nominalSwing : R) (nl nr : nat) (sameFront : bool) (k : nat)
  (tl : list tstep) (s : cpst) : res cpst :=
  match tl with
  | [] => Ok s
  | nx :: r => do s' <- cp_step g dT nominalSwing nl nr sameFront k nx s;
               cp_loop g dT nominalSwing nl nr sameFront (S k) r s'
  end.

(** Result of createPhasesTimings. *)
Record phases : Type := MkPh {
  ph_left : list phase; ph_right : list phase; ph_shift : list nat; ph_merge : list nat; ph_ub : bool
}.

(** src/UnicycleGenerator.cpp:82-199, createPhasesTimings.  [fl], [fr]: impact times of the first
    left/right step; [ord]: orderedSteps.  nominalSwitchTime is refreshed by the caller (line 394). *)
Definition create_phases (g : gset) (dT init : R) (nl nr : nat) (fl fr : R) (ord : list tstep)
  : res phases :=
  match ord with
  | [_; _] =>
      do es <- size_round (g_endSwitch g / dT);
      let swingPh := repeat SwitchIn es in
      let stancePh := repeat SwitchOut es in
      let leftSwing := Rgtb fl fr in
      Ok (MkPh (if leftSwing then swingPh else stancePh) (if leftSwing then stancePh else swingPh)
               [0%nat; es] (0%nat :: seq 1 (es - 1)) false)
  | _ :: _ :: tl =>
      let total := st_time (t_step (last ord (hd (MkT true 0 (MkStep vzero 0 0 "")) ord))) - init + g_endSwitch g in
      do _ <- size_ceil (total / dT);
      let nominalSwing := g_nomStep g - g_switchPct g * g_nomStep g in
      do s <- cp_loop g dT nominalSwing nl nr (Reqb fl fr) 2 tl
                (MkCP [] [] [0%nat] 0 [0%nat] 1 1 init None false);
      do es <- size_round (g_endSwitch g / dT);
      let lastLeft := match c_lastLeft s with Some b => b | None => true end in
      let fin := (c_cur s + es)%nat in
      do mlast <- sub_size fin 1;
      Ok (MkPh (c_lp s ++ repeat (if lastLeft then SwitchIn else SwitchOut) es)
               (c_rp s ++ repeat (if lastLeft then SwitchOut else SwitchIn) es)
               (c_shift s ++ [fin]) (c_merge s ++ [mlast]) (c_ub s))
  | _ => UB
  end.

(** src/UnicycleGenerator.cpp:201-217. *)
Definition contact_of (p : phase) : bool := match p with Swing => false | _ => true end.
(** src/UnicycleGenerator.cpp:219-226. *)
Definition fixed_of (p : phase) : bool :=
  match p with Stance => true | SwitchOut => true | _ => false end.

(** Everything computed by generateFromFootPrints before the trajectory generators. *)
Record genout : Type := MkGO {
  go_ord : list tstep; go_ph : phases;
  go_lContact : list bool; go_rContact : list bool; go_leftFixed : list bool
}.

(** src/UnicycleGenerator.cpp:357-411, generateFromFootPrints up to the plug-in generators.
    [srt]: the outcome of the unstable sort. *)
Definition generate_phases (g : gset) (left right : footprint) (init dT : R) (srt : list tstep)
  : res genout :=
  if Nat.ltb (fp_number left) 1 then Fail
  else if Nat.ltb (fp_number right) 1 then Fail
  else if String.eqb (fp_name left) (fp_name right) then Fail
  else if Rleb dT 0 then Fail
  else match fp_steps left, fp_steps right with
       | l0 :: _, r0 :: _ =>
           if Rltb init (Rmax (st_time l0) (st_time r0)) then Fail
           else
             do ord <- order_steps srt;
             do ph <- create_phases g dT init (fp_number left) (fp_number right)
                        (st_time l0) (st_time r0) ord;
             Ok (MkGO ord ph (map contact_of (ph_left ph)) (map contact_of (ph_right ph))
                      (map fixed_of (ph_left ph)))
       | _, _ => Fail
       end.
