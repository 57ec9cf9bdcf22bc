(** What the speed limits mean for doubles. *)
From Coq Require Import Reals ZArith List Bool.
From Flocq Require Import Core IEEE754.BinarySingleNaN.
From Verif Require Import Prelude Controllers ControlSpec Doubles DoublesSpec CtrlDoubles.
Import ListNotations.
Open Scope R_scope.

(** What the user last configured: the last calls with arguments that are not negative. *)
Definition arg64 (x : f64) : option f64 := if Bleb fzero x then Some x else None.
Definition sat64 (l : list (setter f64)) : option (f64 * f64) :=
  last_of (fun c => match c with sSat x y => match arg64 x, arg64 y with Some x, Some y => Some (Some (x, y)) | _, _ => None end | _ => None end) None l.
Definition turn64 (l : list (setter f64)) : f64 := last_of (fun c => match c with sTurn x => arg64 x | _ => None end) fzero l.
Definition back64 (l : list (setter f64)) : f64 := last_of (fun c => match c with sBack x => arg64 x | _ => None end) f1 l.
Definition side64 (l : list (setter f64)) : f64 := last_of (fun c => match c with sSide x => arg64 x | _ => None end) f1 l.

(** No component is NaN; infinities are allowed. *)
Definition numbers (c : dcmd f64) : Prop := number (d_fwd c) /\ number (d_ang c) /\ number (d_lat c).
(** [x] lies between the negated [y] and [z]. *)
Definition between64 (y x z : f64) : Prop := le64 (fopp y) x /\ le64 x z.
(** Finite limits and factors; squares of admissible angular velocities do not overflow. *)
Definition moderate (lin ang turn back side : f64) : Prop :=
  fin lin = true /\ fin turn = true /\ fin back = true /\ fin side = true /\ f2r ang <= bpow radix2 511 /\ fin ang = true.
