(** Tactics to evaluate the model on concrete numbers (used by the examples and refutations). *)
From Coq Require Import Reals Lra List Bool.
From Verif Require Import Prelude.
Open Scope R_scope.

Lemma sqrt_ltb_t : forall x k, 0 < k -> x < k * k -> Rltb (sqrt x) k = true.
Proof.
  intros x k Hk Hx. apply Rltb_true. destruct (Rle_dec 0 x) as [H|H].
  - rewrite <- (sqrt_square k) by lra. apply sqrt_lt_1; lra.
  - rewrite sqrt_neg_0 by lra. exact Hk.
Qed.
Lemma sqrt_ltb_f : forall x k, 0 <= k -> k * k <= x -> Rltb (sqrt x) k = false.
Proof. intros x k Hk Hx. apply Rltb_false. rewrite <- (sqrt_square k) by lra. apply sqrt_le_1_alt; lra. Qed.
Lemma sqrt_ltb_n : forall x k, k <= 0 -> Rltb (sqrt x) k = false.
Proof. intros x k Hk. apply Rltb_false. pose proof (sqrt_pos x). lra. Qed.
Lemma sqrt_leb_t : forall x k, 0 <= k -> x <= k * k -> Rleb (sqrt x) k = true.
Proof.
  intros x k Hk Hx. apply Rleb_true. rewrite <- (sqrt_square k) by lra. apply sqrt_le_1_alt; lra.
Qed.
Lemma sqrt_leb_f : forall x k, 0 <= k -> k * k < x -> Rleb (sqrt x) k = false.
Proof.
  intros x k Hk Hx. pose proof (Rmult_le_pos _ _ Hk Hk). apply Rleb_false. rewrite <- (sqrt_square k) by lra. apply sqrt_lt_1; lra.
Qed.

Lemma rltb_t : forall a b, a < b -> Rltb a b = true. Proof. intros; apply Rltb_true; auto. Qed.
Lemma rltb_f : forall a b, b <= a -> Rltb a b = false. Proof. intros; apply Rltb_false; auto. Qed.
Lemma rleb_t : forall a b, a <= b -> Rleb a b = true. Proof. intros; apply Rleb_true; auto. Qed.
Lemma rleb_f : forall a b, b < a -> Rleb a b = false. Proof. intros; apply Rleb_false; auto. Qed.
Lemma reqb_t : forall a b, a = b -> Reqb a b = true. Proof. intros; apply Reqb_true; auto. Qed.
Lemma reqb_f : forall a b, a <> b -> Reqb a b = false. Proof. intros; apply Reqb_false; auto. Qed.

Ltac rside := first [lra | unfold Rabs, Rmax, Rmin; repeat (match goal with
  | |- context [Rcase_abs ?x] => destruct (Rcase_abs x)
  | |- context [Rle_dec ?x ?y] => destruct (Rle_dec x y) end); lra ].

Ltac ev1 :=
  match goal with
  | |- context [Rltb (sqrt ?x) ?k] => first [rewrite (sqrt_ltb_t x k) by rside | rewrite (sqrt_ltb_f x k) by rside | rewrite (sqrt_ltb_n x k) by rside]
  | |- context [Rleb (sqrt ?x) ?k] => first [rewrite (sqrt_leb_t x k) by rside | rewrite (sqrt_leb_f x k) by rside]
  | |- context [Rltb ?a ?b] => first [rewrite (rltb_t a b) by rside | rewrite (rltb_f a b) by rside]
  | |- context [Rleb ?a ?b] => first [rewrite (rleb_t a b) by rside | rewrite (rleb_f a b) by rside]
  | |- context [Reqb ?a ?b] => first [rewrite (reqb_t a b) by rside | rewrite (reqb_f a b) by rside]
  end.

(** Equality of structures with real components. *)
Ltac req := repeat (match goal with |- @eq R _ _ => fail 1 | |- _ => progress f_equal end); try reflexivity; try lra.
Lemma rgtb_t : forall a b, b < a -> Rgtb a b = true. Proof. intros; apply Rltb_true; auto. Qed.
Lemma rgtb_f : forall a b, a <= b -> Rgtb a b = false. Proof. intros; apply Rltb_false; auto. Qed.
