(** The exact condition for C84. *)
From Coq Require Import String Reals ZArith List Bool.
From Flocq Require Import Core IEEE754.BinarySingleNaN.
From Verif Require Import Prelude Doubles DoublesGen DoublesSpec DoublesProofs DoublesProofs2 DoublesProofs6 Properties_Doubles.
Import ListNotations.

(** [<] is a strict weak order on the stored impact times exactly when no NaN is among them together with two different numbers. *)
Theorem C84_order_iff : forall tsl tsr nl nr, let times := map n_time (n_all (nf_steps (built tsl nl)) (nf_steps (built tsr nr))) in
  (strict_weak_order (@Bltb 53 1024) times <-> ~ exists n a b, In n times /\ In a times /\ In b times /\ is_nan n = true /\ Bltb a b = true).
Proof.
  intros tsl tsr nl nr times. assert (NA : forall n a : f64, is_nan n = true -> Bltb a n = false /\ Bltb n a = false) by (intros [[]|[]| |[] ? ? ?] a H; try discriminate H; destruct a as [[]|[]| |[] ? ? ?]; split; reflexivity). split.
  - intros (_ & _ & T) (n & a & b & Hn & Ha & Hb & En & Lt). destruct (NA n a En) as (A1 & A2). destruct (NA n b En) as (B1 & B2). destruct (T a n b Ha Hn Hb A1 A2 B2 B1) as (C & _). rewrite Lt in C. discriminate.
  - intros H. destruct (existsb is_nan times) eqn:E.
    + apply existsb_exists in E. destruct E as (n & Hn & En). assert (F : forall a b, In a times -> In b times -> Bltb a b = false). { intros a b Ha Hb. destruct (Bltb a b) eqn:L; [|reflexivity]. exfalso. apply H. exists n, a, b. auto. }
      split; [intros x Hx; apply F; auto|]. split; [intros x y z Hx Hy Hz L; rewrite (F x y Hx Hy) in L; discriminate|]. intros x y z Hx Hy Hz _ _ _ _. split; apply F; auto.
    + apply numbers_ordered. intros x Hx. apply number_nan. destruct (is_nan x) eqn:N; [|reflexivity]. exfalso. assert (existsb is_nan times = true) by (apply existsb_exists; eauto). congruence.
Qed.
Print Assumptions C84_order_iff.
