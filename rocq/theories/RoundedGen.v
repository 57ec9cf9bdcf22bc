(** The phase computation of UnicycleGenerator with every arithmetic operation followed by a rounding.
    [GenPhases.v] computes with exact reals; here [rnd] is applied to the result of each [+ - * /] and of each
    conversion from [size_t] to [double], in the order in which the code performs them.  [std::round] and
    [std::ceil] are exact in floating point.  Not modelled: overflow to infinity, NaN, contraction to fused
    multiply-add, conversions of values of 2^64 or more to [size_t]. *)
From Coq Require Import String Reals ZArith List Bool.
From Flocq Require Import Core.
From Verif Require Import Prelude Rounding FootPrint GenPhases.
Import ListNotations.
Open Scope R_scope.

(** IEEE 754 binary64, rounding to nearest with ties to even: the arithmetic of [double]. *)
Definition b64_exp : Z -> Z := FLT_exp (-1074) 53.
Definition b64 (x : R) : R := round radix2 b64_exp ZnearestE x.
(** [x] is the value of a [double]. *)
Definition is_b64 (x : R) : Prop := generic_format radix2 b64_exp x.

Section Rounded.
Variable rnd : R -> R.

(** src/UnicycleGenerator.cpp:550-561.  The other setters perform no arithmetic. *)
Definition set_switchRatio_r (ratio : R) (g : gset) : gset * bool :=
  if Rleb ratio 0 then (g, false)
  else (MkG (rnd (ratio / rnd (1 + ratio))) (g_endSwitch g) (g_maxStep g) (g_nomStep g) (g_pause g) (g_mrBegin g) (g_mrEnd g), true).
Definition gset_run_r (g : gset) (o : gop) : gset :=
  match o with
  | GoSwitch r => fst (set_switchRatio_r r g)
  | _ => gset_run g o
  end.

(** src/UnicycleGenerator.cpp:140-148. *)
Definition switch_time_r (g : gset) (nominalSwing : R) (isFirst sameFront : bool) (stepTime : R) : R :=
  if isFirst && negb sameFront then
    rnd (rnd (rnd (g_switchPct g / rnd (1 - rnd (g_switchPct g / 2))) * stepTime) / 2)
  else if g_pause g && Rgtb stepTime (g_maxStep g) then rnd (stepTime - nominalSwing)
  else rnd (g_switchPct g * stepTime).

(** src/UnicycleGenerator.cpp:131-187, one iteration; see [cp_step]. *)
Definition cp_step_r (g : gset) (dT nominalSwing : R) (nl nr : nat) (sameFront : bool) (k : nat)
  (nx : tstep) (s : cpst) : res cpst :=
  let stepTime := rnd (st_time (t_step nx) - c_prev s) in
  if Rltb stepTime 0 then Fail
  else
    let switchTime := switch_time_r g nominalSwing (Nat.eqb k 2) sameFront stepTime in
    do stepSamples <- size_round (rnd (stepTime / dT));
    do switchSamples <- size_round (rnd (switchTime / dT));
    do swingSamples <- sub_size stepSamples switchSamples;
    let isLeft := t_left nx && Nat.eqb (t_idx nx) (c_li s) in
    let isRight := negb (t_left nx) && Nat.eqb (t_idx nx) (c_ri s) in
    let ub := c_ub s || Nat.leb nl (c_li s) || (negb isLeft && Nat.leb nr (c_ri s)) in
    if negb isLeft && negb isRight then Fail
    else
      let endSwitchIdx := (c_cur s + switchSamples)%nat in
      do mp <- (if Nat.eqb k 2 then Ok []
                else
                  do offB <- size_round (rnd (rnd (switchTime * rnd (1 - g_mrBegin g)) / dT));
                  do offE <- size_round (rnd (rnd (switchTime * rnd (1 - g_mrEnd g)) / dT));
                  do mi <- sub_size endSwitchIdx offB;
                  do mf <- sub_size endSwitchIdx offE;
                  Ok (range_incl mi mf));
      let swingPh := repeat SwitchOut switchSamples ++ repeat Swing swingSamples in
      let stancePh := repeat SwitchIn switchSamples ++ repeat Stance swingSamples in
      Ok (MkCP (c_lp s ++ (if isLeft then swingPh else stancePh))
               (c_rp s ++ (if isLeft then stancePh else swingPh))
               (c_shift s ++ [endSwitchIdx; (endSwitchIdx + swingSamples)%nat])
               (endSwitchIdx + swingSamples)%nat
               (c_merge s ++ mp)
               (if isLeft then S (c_li s) else c_li s)
               (if isLeft then c_ri s else S (c_ri s))
               (rnd (c_prev s + rnd (rnd (INR stepSamples) * dT)))
               (Some isLeft) ub).

Fixpoint cp_loop_r (g : gset) (dT nominalSwing : R) (nl nr : nat) (sameFront : bool) (k : nat)
  (tl : list tstep) (s : cpst) : res cpst :=
  match tl with
  | [] => Ok s
  | nx :: r => do s' <- cp_step_r g dT nominalSwing nl nr sameFront k nx s;
               cp_loop_r g dT nominalSwing nl nr sameFront (S k) r s'
  end.

(** src/UnicycleGenerator.cpp:394 (nominalSwitchTime) and 127. *)
Definition nominal_swing_r (g : gset) : R := rnd (g_nomStep g - rnd (g_switchPct g * g_nomStep g)).

(** src/UnicycleGenerator.cpp:82-199, createPhasesTimings; see [create_phases]. *)
Definition create_phases_r (g : gset) (dT init : R) (nl nr : nat) (fl fr : R) (ord : list tstep)
  : res phases :=
  match ord with
  | [_; _] =>
      do es <- size_round (rnd (g_endSwitch g / dT));
      let swingPh := repeat SwitchIn es in
      let stancePh := repeat SwitchOut es in
      let leftSwing := Rgtb fl fr in
      Ok (MkPh (if leftSwing then swingPh else stancePh) (if leftSwing then stancePh else swingPh)
               [0%nat; es] (0%nat :: seq 1 (es - 1)) false)
  | _ :: _ :: tl =>
      let total := rnd (rnd (st_time (t_step (last ord (hd (MkT true 0 (MkStep vzero 0 0 "")) ord))) - init) + g_endSwitch g) in
      do _ <- size_ceil (rnd (total / dT));
      do s <- cp_loop_r g dT (nominal_swing_r g) nl nr (Reqb fl fr) 2 tl
                (MkCP [] [] [0%nat] 0 [0%nat] 1 1 init None false);
      do es <- size_round (rnd (g_endSwitch g / dT));
      let lastLeft := match c_lastLeft s with Some b => b | None => true end in
      let fin := (c_cur s + es)%nat in
      do mlast <- sub_size fin 1;
      Ok (MkPh (c_lp s ++ repeat (if lastLeft then SwitchIn else SwitchOut) es)
               (c_rp s ++ repeat (if lastLeft then SwitchOut else SwitchIn) es)
               (c_shift s ++ [fin]) (c_merge s ++ [mlast]) (c_ub s))
  | _ => UB
  end.

(** src/UnicycleGenerator.cpp:357-411; see [generate_phases]. *)
Definition generate_phases_r (g : gset) (left right : footprint) (init dT : R) (srt : list tstep)
  : res genout :=
  if Nat.ltb (fp_number left) 1 then Fail
  else if Nat.ltb (fp_number right) 1 then Fail
  else if String.eqb (fp_name left) (fp_name right) then Fail
  else if Rleb dT 0 then Fail
  else match fp_steps left, fp_steps right with
       | l0 :: _, r0 :: _ =>
           if Rltb init (Rmax (st_time l0) (st_time r0)) then Fail
           else
             do ord <- order_steps srt;
             do ph <- create_phases_r g dT init (fp_number left) (fp_number right)
                        (st_time l0) (st_time r0) ord;
             Ok (MkGO ord ph (map contact_of (ph_left ph)) (map contact_of (ph_right ph))
                      (map fixed_of (ph_left ph)))
       | _, _ => Fail
       end.
End Rounded.
