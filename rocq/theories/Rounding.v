(** [std::round], [std::ceil], conversions to [size_t] on reals. *)
From Coq Require Import Reals Lra Lia ZArith List Bool.
From Flocq Require Import Core.Raux.
From Verif Require Import Prelude.
Open Scope R_scope.

(** [std::round]: nearest integer, halves away from zero. *)
Definition Rround (x : R) : Z :=
  if Rlt_dec x 0 then (- Zfloor (- x + / 2))%Z else Zfloor (x + / 2).

(** [static_cast<size_t>(z)] of an integral double: undefined when negative.
    Values above 2^64 are not modelled. *)
Definition to_size (z : Z) : res nat := if Z.ltb z 0 then UB else Ok (Z.to_nat z).

(** [static_cast<size_t>(std::round(x))]. *)
Definition size_round (x : R) : res nat := to_size (Rround x).
(** [static_cast<size_t>(std::ceil(x))]. *)
Definition size_ceil (x : R) : res nat := to_size (Zceil x).

(** Unsigned subtraction; a wrap-around is reported. *)
Definition sub_size (a b : nat) : res nat := if Nat.leb b a then Ok (a - b)%nat else UB.

Lemma Rround_nonneg : forall x, 0 <= x -> (0 <= Rround x)%Z.
Proof.
  intros x Hx. unfold Rround. destruct (Rlt_dec x 0); [lra|].
  apply Zfloor_lub. simpl. lra.
Qed.

Lemma Rround_bounds : forall x, 0 <= x -> IZR (Rround x) - / 2 <= x < IZR (Rround x) + / 2.
Proof.
  intros x Hx. unfold Rround. destruct (Rlt_dec x 0); [lra|].
  pose proof (Zfloor_lb (x + / 2)). pose proof (Zfloor_ub (x + / 2)). lra.
Qed.

Lemma Rround_mono : forall x y, 0 <= x <= y -> (Rround x <= Rround y)%Z.
Proof.
  intros x y H. unfold Rround. destruct (Rlt_dec x 0); [lra|]. destruct (Rlt_dec y 0); [lra|].
  apply Zfloor_le. lra.
Qed.

Lemma Rround_IZR : forall n, (0 <= n)%Z -> Rround (IZR n) = n.
Proof.
  intros n Hn. apply IZR_le in Hn. unfold Rround. destruct (Rlt_dec (IZR n) 0); [lra|].
  apply Zfloor_imp. rewrite plus_IZR. lra.
Qed.

Lemma Rround_imp : forall x n, (0 <= n)%Z -> 0 <= x -> IZR n - / 2 <= x < IZR n + / 2 -> Rround x = n.
Proof.
  intros x n Hn Hx H. unfold Rround. destruct (Rlt_dec x 0); [lra|].
  apply Zfloor_imp. rewrite plus_IZR. lra.
Qed.

(** [nround]: the number of samples, for non-negative arguments. *)
Definition nround (x : R) : nat := Z.to_nat (Rround x).

Lemma size_round_ok : forall x, 0 <= x -> size_round x = Ok (nround x).
Proof.
  intros x Hx. unfold size_round, to_size. pose proof (Rround_nonneg x Hx).
  destruct (Z.ltb_spec (Rround x) 0); [lia|reflexivity].
Qed.

Lemma nround_bounds : forall x, 0 <= x -> INR (nround x) - / 2 <= x < INR (nround x) + / 2.
Proof.
  intros x Hx. pose proof (Rround_nonneg x Hx). pose proof (Rround_bounds x Hx).
  unfold nround. rewrite INR_IZR_INZ, Z2Nat.id; auto.
Qed.

Lemma nround_mono : forall x y, 0 <= x <= y -> (nround x <= nround y)%nat.
Proof. intros x y H. apply Z2Nat.inj_le; try apply Rround_nonneg; try lra. apply Rround_mono; auto. Qed.

Lemma nround_INR : forall n, nround (INR n) = n.
Proof.
  intros n. unfold nround. rewrite INR_IZR_INZ, Rround_IZR by lia. apply Nat2Z.id.
Qed.

Lemma nround_imp : forall x n, 0 <= x -> INR n - / 2 <= x < INR n + / 2 -> nround x = n.
Proof.
  intros x n Hx H. unfold nround. rewrite INR_IZR_INZ in H.
  rewrite (Rround_imp x (Z.of_nat n)); try lia; auto.
Qed.

Lemma nround_0 : nround 0 = 0%nat.
Proof. exact (nround_INR 0). Qed.

Lemma size_round_inv : forall x n, size_round x = Ok n -> 0 <= x -> n = nround x.
Proof. intros x n H Hx. rewrite size_round_ok in H by auto. congruence. Qed.
