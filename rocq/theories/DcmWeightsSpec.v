(** What the user of the weights relies on, for doubles. *)
From Coq Require Import Reals ZArith List Bool.
From Flocq Require Import Core IEEE754.BinarySingleNaN.
From Verif Require Import Prelude UnicycleFoot GenPhases Doubles DoublesSpec FeetTimesSpec CtrlDoubles.
Import ListNotations.
Open Scope R_scope.

(** Equal as doubles: same value, both numbers. *)
Definition is64 (x y : f64) : Prop := Beqb x y = true.
(** A share of the load: two numbers between 0 and 1 whose sum in doubles is exactly 1. *)
Definition share64 (w : f64 * f64) : Prop :=
  le64 fzero (fst w) /\ le64 (fst w) f1 /\ le64 fzero (snd w) /\ le64 (snd w) f1 /\ is64 (fadd (fst w) (snd w)) f1.
(** All on the left, all on the right. *)
Definition all_left (w : f64 * f64) : Prop := is64 (fst w) f1 /\ is64 (snd w) fzero.
Definition all_right (w : f64 * f64) : Prop := is64 (fst w) fzero /\ is64 (snd w) f1.

(** One weight per sample, as the phases say: all on the foot that stands while the other swings, and [share] between the
    two when both are on the ground, where each foot is on the step after as many as it has swung before. *)
Definition follows {N : Type} (one none : N) (share : dpose N -> dpose N -> N * N -> N * N -> Prop) (ph : phases) (zs : list (N * N))
  (ls rs : list (dpose N)) (ws : list (N * N)) : Prop :=
  length ws = length zs /\
  forall j a b k p w, nth_error (ph_shift ph) j = Some a -> nth_error (ph_shift ph) (S j) = Some b -> (a <= k < b)%nat ->
  nth_error (ph_left ph) k = Some p -> nth_error ws k = Some w ->
  match p with
  | Stance => w = (one, none)
  | Swing => w = (none, one)
  | _ => exists sl sr z, nth_error ls (swings (ph_left ph) (firstn (S j) (ph_shift ph))) = Some sl
           /\ nth_error rs (swings (ph_right ph) (firstn (S j) (ph_shift ph))) = Some sr /\ nth_error zs k = Some z /\ share sl sr z w
  end.
(** The exact share of the left foot: 1 at its ZMP, less the further away, 0 from the distance of the other foot's ZMP on. *)
Definition dist (a b : f64 * f64) : R := sqrt ((f2r (fst a) - f2r (fst b)) * (f2r (fst a) - f2r (fst b)) + (f2r (snd a) - f2r (snd b)) * (f2r (snd a) - f2r (snd b))).
Definition exact_share (zl zr z : f64 * f64) : R := Rmax 0 (1 - dist z zl / dist zr zl).
(** Positions of finite coordinates of at most 2^500. *)
Definition placed (a : f64 * f64) : Prop := fin (fst a) = true /\ fin (snd a) = true /\ Rabs (f2r (fst a)) <= bpow radix2 500 /\ Rabs (f2r (snd a)) <= bpow radix2 500.
(** The ZMP of a foot on a step, with the cosine and the sine that are used. *)
Definition zmp64 (cosf sinf : f64 -> f64) (off : f64 * f64) (s : dpose f64) : f64 * f64 :=
  (fsub (fadd (d_x s) (fmul (cosf (d_th s)) (fst off))) (fmul (sinf (d_th s)) (snd off)),
   fadd (fadd (d_y s) (fmul (sinf (d_th s)) (fst off))) (fmul (cosf (d_th s)) (snd off))).
(** [w] is a share of the load, with the left foot's part within 2^-47 of the exact one. *)
Definition weighs (cosf sinf : f64 -> f64) (offL offR : f64 * f64) (sl sr : dpose f64) (z w : f64 * f64) : Prop :=
  let zl := zmp64 cosf sinf offL sl in let zr := zmp64 cosf sinf offR sr in
  share64 w /\ (placed zl -> placed zr -> placed z -> bpow radix2 (-470) <= dist zr zl -> Rabs (f2r (fst w) - exact_share zl zr z) <= bpow radix2 (-47)).
