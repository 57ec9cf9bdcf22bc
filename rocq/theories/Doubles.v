(** Arithmetic of the code as a parameter, and the setters of all classes with numeric arguments over it.
    Instances: exact reals (the other model files), rounded reals (RoundedGen.v) and IEEE 754 binary64 with
    infinities and NaN (Flocq's [binary_float]), which is what [double] is on the supported platforms.
    Contraction to fused multiply-add is not modelled. *)
From Coq Require Import Reals ZArith List Bool.
From Flocq Require Import Core IEEE754.BinarySingleNaN.
From Verif Require Import Prelude Rounding RoundedGen.
Import ListNotations.
Open Scope R_scope.

(** Operations the modelled code uses.  [a_lt], [a_le], [a_eq] are C++ [<], [<=], [==] ([x > y] is [a_lt y x]).
    [a_q p q] is a literal, the quotient [p / q] rounded once; [a_pi] is [M_PI]; [a_size] converts a [size_t];
    [a_round], [a_ceil] are [static_cast<size_t>(std::round(x))] and [static_cast<size_t>(std::ceil(x))]. *)
Record arith (N : Type) : Type := MkArith {
  a_lt : N -> N -> bool; a_le : N -> N -> bool; a_eq : N -> N -> bool;
  a_add : N -> N -> N; a_sub : N -> N -> N; a_mul : N -> N -> N; a_div : N -> N -> N; a_abs : N -> N;
  a_q : Z -> Z -> N; a_pi : N;
  a_size : nat -> N; a_round : N -> res nat; a_ceil : N -> res nat
}.
Arguments a_lt {N}. Arguments a_le {N}. Arguments a_eq {N}. Arguments a_add {N}. Arguments a_sub {N}.
Arguments a_mul {N}. Arguments a_div {N}. Arguments a_abs {N}. Arguments a_q {N}. Arguments a_pi {N}.
Arguments a_size {N}. Arguments a_round {N}. Arguments a_ceil {N}.

(** Exact reals. *)
Definition reals : arith R :=
  MkArith R Rltb Rleb Reqb Rplus Rminus Rmult Rdiv Rabs (fun p q => IZR p / IZR q) PI INR size_round size_ceil.

(** Reals with a rounding after each operation; [pi] is the value of [M_PI]. *)
Definition rounded (rnd : R -> R) (pi : R) : arith R :=
  MkArith R Rltb Rleb Reqb (fun x y => rnd (x + y)) (fun x y => rnd (x - y)) (fun x y => rnd (x * y)) (fun x y => rnd (x / y))
    Rabs (fun p q => rnd (IZR p / IZR q)) pi (fun n => rnd (INR n)) size_round size_ceil.

(** ** IEEE 754 binary64 *)
Definition prec64 : Prec_gt_0 53 := eq_refl.
Definition emax64 : Prec_lt_emax 53 1024 := eq_refl.
Definition f64 : Type := binary_float 53 1024.
Definition fadd : f64 -> f64 -> f64 := @Bplus 53 1024 prec64 emax64 mode_NE.
Definition fsub : f64 -> f64 -> f64 := @Bminus 53 1024 prec64 emax64 mode_NE.
Definition fmul : f64 -> f64 -> f64 := @Bmult 53 1024 prec64 emax64 mode_NE.
Definition fdiv : f64 -> f64 -> f64 := @Bdiv 53 1024 prec64 emax64 mode_NE.
(** The double nearest to the integer [m] times [2^e]. *)
Definition fmake (m e : Z) : f64 := @binary_normalize 53 1024 prec64 emax64 mode_NE m e false.
Definition fnan : f64 := B754_nan.
Definition finf : f64 := B754_infinity false.
Definition fzero : f64 := B754_zero false.
Definition f2r (x : f64) : R := B2R x.
Definition fin (x : f64) : bool := is_finite x.
(** [M_PI] is 884279719003555 * 2^-48. *)
Definition fpi : f64 := fmake 884279719003555 (-48).

(** Conversion of an integral double to [size_t]: undefined for negative values and from 2^64 on. *)
Definition to_size64 (z : Z) : res nat := if Z.ltb z 0 || Z.leb (2 ^ 64) z then UB else Ok (Z.to_nat z).
(** [static_cast<size_t>(std::round(x))]: undefined for NaN and infinities. *)
Definition fround (x : f64) : res nat := if fin x then to_size64 (Rround (f2r x)) else UB.
Definition fceil (x : f64) : res nat := if fin x then to_size64 (Zceil (f2r x)) else UB.

Definition ieee : arith f64 :=
  MkArith f64 (@Bltb 53 1024) (@Bleb 53 1024) (@Beqb 53 1024) fadd fsub fmul fdiv (@Babs 53 1024)
    (fun p q => fdiv (fmake p 0) (fmake q 0)) fpi (fun n => fmake (Z.of_nat n) 0) fround fceil.

(** ** Settings *)
(** Members written by the setters. *)
Inductive field : Type :=
| q_share | q_terminal | q_maxStep | q_nomStep | q_mergeB | q_mergeE
| q_height | q_pitch | q_apex | q_landing
| q_com | q_comDelta
| q_omega | q_alpha | q_still | q_last
| q_satLin | q_satAng | q_turn | q_back | q_side
| q_gain | q_distX | q_distY | q_cons
| q_linFac | q_angFac | q_intStep | q_navStep | q_maxLen | q_maxBack | q_maxAngle | q_posW | q_timeW
| q_minT | q_maxT | q_nomT | q_period | q_minAngle | q_minLen | q_minWidth | q_nomWidth | q_leftYaw | q_rightYaw.
Definition field_eq_dec (p q : field) : {p = q} + {p <> q}.
Proof. decide equality. Defined.

(** Calls with numeric arguments. *)
Inductive setter (N : Type) : Type :=
| sRatio (r : N) | sTerminal (t : N) | sPause (mx nom : N) | sMerge (b e : N)
| sHeight (h : N) | sPitch (d : N) | sApex (r : N) | sLanding (v : N)
| sCom (h d : N)
| sOmega (x : N) | sAlpha (x : N) | sStill (x : N) | sLast (x : N)
| sSat (lin ang : N) | sTurn (g : N) | sBack (g : N) | sSide (g : N)
| sGain (g : N) | sDist (x y : N) | sCons (c : N)
| sFactors (l a : N) | sIntStep (d : N) | sMaxLen (l : N) | sMaxLen2 (l m : N) | sMaxAngle (a : N) | sWeights (p t : N)
| sTimings (mn mx nom : N) | sPeriod (d : N) | sMinAngle (a : N) | sMinLen (l : N) | sWidth (mn nom : N)
| sLeftYaw (y : N) | sRightYaw (y : N).
Arguments sRatio {N}. Arguments sTerminal {N}. Arguments sPause {N}. Arguments sMerge {N}. Arguments sHeight {N}.
Arguments sPitch {N}. Arguments sApex {N}. Arguments sLanding {N}. Arguments sCom {N}. Arguments sOmega {N}.
Arguments sAlpha {N}. Arguments sStill {N}. Arguments sLast {N}. Arguments sSat {N}. Arguments sTurn {N}.
Arguments sBack {N}. Arguments sSide {N}. Arguments sGain {N}. Arguments sDist {N}. Arguments sCons {N}.
Arguments sFactors {N}. Arguments sIntStep {N}. Arguments sMaxLen {N}. Arguments sMaxLen2 {N}. Arguments sMaxAngle {N}.
Arguments sWeights {N}. Arguments sTimings {N}. Arguments sPeriod {N}. Arguments sMinAngle {N}. Arguments sMinLen {N}.
Arguments sWidth {N}. Arguments sLeftYaw {N}. Arguments sRightYaw {N}.

(** The numeric arguments of a call. *)
Definition args {N : Type} (c : setter N) : list N :=
  match c with
  | sRatio x | sTerminal x | sHeight x | sPitch x | sApex x | sLanding x | sOmega x | sAlpha x | sStill x | sLast x
  | sTurn x | sBack x | sSide x | sGain x | sCons x | sIntStep x | sMaxLen x | sMaxAngle x | sPeriod x | sMinAngle x
  | sMinLen x | sLeftYaw x | sRightYaw x => [x]
  | sPause x y | sMerge x y | sCom x y | sSat x y | sDist x y | sFactors x y | sMaxLen2 x y | sWeights x y | sWidth x y => [x; y]
  | sTimings x y z => [x; y; z]
  end.

Section Setters.
Variable N : Type.
Variable A : arith N.
Definition c0 : N := a_q A 0 1.
Definition c1 : N := a_q A 1 1.
Definition upd (s : field -> N) (q : field) (v : N) : field -> N := fun p => if field_eq_dec p q then v else s p.
(** [x < 0], [x <= 0], [x > 1]. *)
Definition below0 (x : N) : bool := a_lt A x c0.
Definition atmost0 (x : N) : bool := a_le A x c0.
Definition above1 (x : N) : bool := a_lt A c1 x.
Definition over (x y : N) : bool := a_lt A y x.
(** iDynTree::deg2rad: degrees * M_PI / 180 (external). *)
Definition rad (d : N) : N := a_div A (a_mul A d (a_pi A)) (a_q A 180 1).

(** One call: new settings and the returned value ([true] for void methods). *)
Definition setv (c : setter N) (s : field -> N) : (field -> N) * bool :=
  match c with
  (* src/UnicycleGenerator.cpp:550-561 *)
  | sRatio r => if atmost0 r then (s, false) else (upd s q_share (a_div A r (a_add A c1 r)), true)
  (* src/UnicycleGenerator.cpp:563-574 *)
  | sTerminal t => if atmost0 t then (s, false) else (upd s q_terminal t, true)
  (* src/UnicycleGenerator.cpp:581-604 *)
  | sPause mx nom =>
      if below0 mx then (s, false) else if atmost0 nom then (s, false) else if over nom mx then (s, false)
      else (upd (upd s q_maxStep mx) q_nomStep nom, true)
  (* src/UnicycleGenerator.cpp:611-632 *)
  | sMerge b e =>
      if below0 b || above1 b then (s, false) else if below0 e || above1 e then (s, false) else if over b e then (s, false)
      else (upd (upd s q_mergeB b) q_mergeE e, true)
  (* src/FeetMinimumJerkGenerator.cpp:309-347, src/FeetCubicSplineGenerator.cpp:236-274 *)
  | sHeight h => if below0 h then (s, false) else (upd s q_height h, true)
  | sPitch d => (upd s q_pitch (rad d), true)
  | sApex r => if atmost0 r || a_le A c1 r then (s, false) else (upd s q_apex r, true)
  | sLanding v => (upd s q_landing v, true)
  (* src/CoMHeightTrajectoryGenerator.cpp:117-135 *)
  | sCom h d => if below0 h then (s, false) else if below0 (a_add A h d) then (s, false)
                else (upd (upd s q_com h) q_comDelta d, true)
  (* src/DCMTrajectoryGeneratorHelper.cpp:708-742, 769-781 *)
  | sOmega x => if below0 x then (s, false) else (upd s q_omega x, true)
  | sAlpha x => if below0 x && above1 x then (s, false) else (upd s q_alpha x, true)
  | sStill x => if below0 x && above1 x then (s, false) else (upd s q_still x, true)
  | sLast x => if above1 x || below0 x then (s, false) else (upd s q_last x, true)
  (* src/UnicycleBaseController.cpp:74-118 *)
  | sSat l a => if below0 l || below0 a then (s, false) else (upd (upd s q_satLin l) q_satAng a, true)
  | sTurn g => if below0 g then (s, false) else (upd s q_turn g, true)
  | sBack g => if below0 g then (s, false) else (upd s q_back g, true)
  | sSide g => if below0 g then (s, false) else (upd s q_side g, true)
  (* src/PersonFollowingController.cpp:133-141, 100-111, 227-237 *)
  | sGain g => if atmost0 g then (s, false) else (upd s q_gain g, true)
  | sDist x y => if a_eq A x c0 then (s, false) else (upd (upd s q_distX x) q_distY y, true)
  | sCons c => if below0 c then (s, false) else (upd s q_cons c, true)
  (* src/UnicyclePlanner.cpp:526-546 *)
  | sFactors l a => if below0 l || above1 l then (s, false) else if below0 a || above1 a then (s, false)
                    else (upd (upd s q_linFac l) q_angFac a, true)
  (* src/UnicyclePlanner.cpp:549-559, src/UnicycleNavigationController.cpp:239-253, and the integrator (external) *)
  | sIntStep d => if a_eq A d c0 then (s, false)
                  else let s1 := upd s q_navStep (a_abs A d) in
                       if atmost0 d then (s1, false) else (upd s1 q_intStep d, true)
  (* src/UnicyclePlanner.cpp:561-577, src/UnicycleOptimization.cpp:44-70 *)
  | sMaxLen l => if below0 l then (s, false) else (upd (upd s q_maxLen l) q_maxBack l, true)
  (* src/UnicyclePlanner.cpp:579-602 *)
  | sMaxLen2 l m =>
      if below0 m then (s, false) else if below0 l then (s, false)
      else let s1 := upd s q_maxLen l in
           let b := a_mul A l m in
           if below0 b then (s1, false) else (upd s1 q_maxBack b, true)
  (* src/UnicyclePlanner.cpp:605-614, src/UnicycleOptimization.cpp:86-98 *)
  | sMaxAngle a => if below0 a then (s, false) else (upd s q_maxAngle a, true)
  (* src/UnicyclePlanner.cpp:616-621, src/UnicycleOptimization.cpp:105-108, 301-317 *)
  | sWeights p t => if below0 p then (s, false)
                    else let s1 := upd s q_posW p in
                         if below0 t then (s1, false) else (upd s1 q_timeW t, true)
  (* src/UnicyclePlanner.cpp:623-647 *)
  | sTimings mn mx nom =>
      if below0 mn || below0 mx || below0 nom then (s, false) else if over mn mx then (s, false)
      else if a_lt A nom mn || a_lt A mx nom then (s, false)
      else (upd (upd (upd s q_minT mn) q_maxT mx) q_nomT nom, true)
  (* src/UnicyclePlanner.cpp:649-687 *)
  | sPeriod d => if below0 d then (s, false) else (upd s q_period d, true)
  | sMinAngle a => if below0 a then (s, false) else (upd s q_minAngle a, true)
  | sMinLen l => if below0 l then (s, false) else (upd s q_minLen l, true)
  (* src/UnicyclePlanner.cpp:689-709, src/UnicycleOptimization.cpp:72-84 *)
  | sWidth mn nom => if below0 nom then (s, false) else if a_lt A nom mn then (s, false) else if below0 mn then (s, false)
                     else (upd (upd s q_minWidth mn) q_nomWidth nom, true)
  (* src/UnicyclePlanner.cpp:732-744 *)
  | sLeftYaw y => (upd s q_leftYaw y, true)
  | sRightYaw y => (upd s q_rightYaw y, true)
  end.

(** Values after construction: src/UnicycleGenerator.cpp:32-37, src/FeetMinimumJerkGenerator.cpp:20,
    src/CoMHeightTrajectoryGenerator.cpp:21, src/DCMTrajectoryGeneratorHelper.cpp:696-706,
    src/UnicycleBaseController.cpp:29-36, src/PersonFollowingController.cpp:27-39, src/UnicyclePlanner.cpp:378-416. *)
Definition initv (q : field) : N :=
  match q with
  | q_share => a_q A 1 2 | q_terminal => c1 | q_maxStep => a_q A 10 1 | q_nomStep => a_q A 2 1
  | q_mergeB => a_q A 1 2 | q_mergeE => a_q A 1 2
  | q_height => a_q A (-1) 1 | q_pitch => c0 | q_apex => a_q A 1 2 | q_landing => c0
  | q_com => a_q A (-1) 1 | q_comDelta => c0
  | q_omega => a_div A (a_q A 981 100) (a_q A 1 2) | q_alpha => a_q A 1 2 | q_still => a_q A 1 10 | q_last => c0
  | q_satLin => a_q A (-1) 1 | q_satAng => a_q A (-1) 1 | q_turn => c0 | q_back => c1 | q_side => c1
  | q_gain => a_q A 10 1 | q_distX => a_q A 2 10 | q_distY => c0 | q_cons => a_q A 2 1
  | q_linFac => a_q A 9 10 | q_angFac => a_q A 7 10 | q_intStep => a_q A 1 100 | q_navStep => a_q A 1 100
  | q_maxLen => a_q A 2 10 | q_maxBack => a_q A 2 10 | q_maxAngle => rad (a_q A 45 1)
  | q_posW => c1 | q_timeW => a_q A 5 2
  | q_minT => a_q A 3 1 | q_maxT => a_q A 10 1 | q_nomT => a_q A 4 1 | q_period => a_q A 1 100
  | q_minAngle => rad (a_q A 5 1) | q_minLen => a_q A 5 100 | q_minWidth => a_q A 8 100 | q_nomWidth => a_q A 14 100
  | q_leftYaw => c0 | q_rightYaw => c0
  end.
(** Settings after a history of calls. *)
Definition settings (l : list (setter N)) : field -> N := fold_left (fun s c => fst (setv c s)) l initv.
End Setters.
Arguments setv {N}. Arguments initv {N}. Arguments settings {N}. Arguments upd {N}. Arguments c0 {N}. Arguments c1 {N}.
Arguments rad {N}. Arguments below0 {N}. Arguments atmost0 {N}. Arguments above1 {N}. Arguments over {N}.
