(** The sample counts of the last switch phase in binary64 arithmetic. *)
From Coq Require Import ZArith Floats Uint63.
Open Scope Z_scope.

(** std::ceil and std::round (halves away from zero) of a binary64 number, as integers; [None] for infinities and NaN. *)
Definition sf_ceil (x : spec_float) : option Z :=
  match x with
  | S754_zero _ => Some 0
  | S754_finite s m e =>
      let v := if s then Zneg m else Zpos m in
      Some (if 0 <=? e then v * 2 ^ e else - ((- v) / 2 ^ (- e)))
  | _ => None
  end.
Definition sf_round (x : spec_float) : option Z :=
  match x with
  | S754_zero _ => Some 0
  | S754_finite s m e =>
      let r := if 0 <=? e then Zpos m * 2 ^ e else (2 * Zpos m + 2 ^ (- e)) / (2 * 2 ^ (- e)) in
      Some (if s then - r else r)
  | _ => None
  end.

(** src/UnicycleGenerator.cpp:97 and 188: samples of the last switch phase, std::round(endSwitch/dT). *)
Definition end_samples_f (endSwitch dT : float) : option Z := sf_round (Prim2SF (endSwitch / dT)).
(** src/ZMPTrajectoryGenerator.cpp:318 and 335: samples written in the last switch phase of [n] samples for the foot in
    SwitchOut when it does not pause, std::ceil(((endOfPhase - instant)*dT)/dT). *)
Definition end_writes_f (n : Z) (dT : float) : option Z := sf_ceil (Prim2SF ((of_uint63 (Uint63.of_Z n) * dT) / dT)).
