(** Shared vocabulary of the model: result type, boolean comparisons on reals,
    planar vectors, rotations.  No property is stated here. *)
From Coq Require Import Reals Lra List Bool.
Import ListNotations.
Open Scope R_scope.

(** Outcome of a modelled C++ call.  [Ok a]: the method returned [true] (or a value);
    [Fail]: it returned [false]; [UB]: undefined behaviour or unsigned wrap-around. *)
Inductive res (A : Type) : Type :=
| Ok (a : A)
| Fail
| UB.
Arguments Ok {A} a.
Arguments Fail {A}.
Arguments UB {A}.

Definition rbind {A B : Type} (r : res A) (f : A -> res B) : res B :=
  match r with
  | Ok a => f a
  | Fail => Fail
  | UB => UB
  end.

Notation "'do' x <- r ; k" := (rbind r (fun x => k))
  (at level 200, x pattern, r at level 100, k at level 200).

(** C++ [double] comparisons, modelled on reals. *)
Definition Rltb (x y : R) : bool := if Rlt_dec x y then true else false.
Definition Rleb (x y : R) : bool := if Rle_dec x y then true else false.
Definition Rgtb (x y : R) : bool := Rltb y x.
Definition Rgeb (x y : R) : bool := Rleb y x.
Definition Reqb (x y : R) : bool := if Req_EM_T x y then true else false.

Lemma Rltb_true : forall x y, Rltb x y = true <-> x < y.
Proof. intros x y; unfold Rltb; destruct (Rlt_dec x y); split; intros; auto; congruence. Qed.
Lemma Rltb_false : forall x y, Rltb x y = false <-> y <= x.
Proof. intros x y; unfold Rltb; destruct (Rlt_dec x y); split; intros; try congruence; lra. Qed.
Lemma Rleb_true : forall x y, Rleb x y = true <-> x <= y.
Proof. intros x y; unfold Rleb; destruct (Rle_dec x y); split; intros; auto; congruence. Qed.
Lemma Rleb_false : forall x y, Rleb x y = false <-> y < x.
Proof. intros x y; unfold Rleb; destruct (Rle_dec x y); split; intros; try congruence; lra. Qed.
Lemma Reqb_true : forall x y, Reqb x y = true <-> x = y.
Proof. intros x y; unfold Reqb; destruct (Req_EM_T x y); split; intros; auto; congruence. Qed.
Lemma Reqb_false : forall x y, Reqb x y = false <-> x <> y.
Proof. intros x y; unfold Reqb; destruct (Req_EM_T x y); split; intros; auto; congruence. Qed.

(** Case split on every boolean comparison in the goal / a hypothesis, leaving facts on reals. *)
Ltac rcase1 :=
  match goal with
  | |- context [Rltb ?x ?y] =>
      let H := fresh "Hc" in destruct (Rltb x y) eqn:H;
      [apply Rltb_true in H | apply Rltb_false in H]
  | |- context [Rleb ?x ?y] =>
      let H := fresh "Hc" in destruct (Rleb x y) eqn:H;
      [apply Rleb_true in H | apply Rleb_false in H]
  | |- context [Reqb ?x ?y] =>
      let H := fresh "Hc" in destruct (Reqb x y) eqn:H;
      [apply Reqb_true in H | apply Reqb_false in H]
  | |- context [Rgtb ?x ?y] => unfold Rgtb
  | |- context [Rgeb ?x ?y] => unfold Rgeb
  end.
Ltac rcaseh H0 :=
  match type of H0 with
  | context [Rltb ?x ?y] =>
      let H := fresh "Hc" in destruct (Rltb x y) eqn:H;
      [apply Rltb_true in H | apply Rltb_false in H]
  | context [Rleb ?x ?y] =>
      let H := fresh "Hc" in destruct (Rleb x y) eqn:H;
      [apply Rleb_true in H | apply Rleb_false in H]
  | context [Reqb ?x ?y] =>
      let H := fresh "Hc" in destruct (Reqb x y) eqn:H;
      [apply Reqb_true in H | apply Reqb_false in H]
  | context [Rgtb ?x ?y] => unfold Rgtb in H0
  | context [Rgeb ?x ?y] => unfold Rgeb in H0
  end.
Ltac rcases := repeat rcase1.
Ltac rcasesh H := repeat rcaseh H.

(** Planar vectors ([iDynTree::Vector2]). *)
Record vec2 : Type := V2 { vx : R; vy : R }.

Definition vadd (a b : vec2) : vec2 := V2 (vx a + vx b) (vy a + vy b).
Definition vsub (a b : vec2) : vec2 := V2 (vx a - vx b) (vy a - vy b).
Definition vscale (k : R) (a : vec2) : vec2 := V2 (k * vx a) (k * vy a).
Definition vzero : vec2 := V2 0 0.
Definition vnorm2 (a : vec2) : R := vx a * vx a + vy a * vy a.
Definition vnorm (a : vec2) : R := sqrt (vnorm2 a).

(** [R(theta) * a] with R(0,0)=c, R(0,1)=-s, R(1,0)=s, R(1,1)=c
    (src/UnicycleFoot.cpp:14-28, UnicycleFoot::computeRotationMatrix). *)
Definition rot (theta : R) (a : vec2) : vec2 :=
  V2 (cos theta * vx a - sin theta * vy a) (sin theta * vx a + cos theta * vy a).
(** [R(theta)^T * a]. *)
Definition rotT (theta : R) (a : vec2) : vec2 :=
  V2 (cos theta * vx a + sin theta * vy a) (- sin theta * vx a + cos theta * vy a).

Lemma vec2_ext : forall a b : vec2, vx a = vx b -> vy a = vy b -> a = b.
Proof. intros [ax ay] [bx b_y]; simpl; intros; subst; reflexivity. Qed.

Lemma cs2 : forall t, cos t * cos t + sin t * sin t = 1.
Proof. intros t; pose proof (sin2_cos2 t) as H; unfold Rsqr in H; lra. Qed.

Lemma rotT_rot : forall t a, rotT t (rot t a) = a.
Proof.
  intros t [x y]; apply vec2_ext; simpl; pose proof (cs2 t) as H.
  - replace (cos t * (cos t * x - sin t * y) + sin t * (sin t * x + cos t * y))
      with ((cos t * cos t + sin t * sin t) * x) by ring. rewrite H; ring.
  - replace (- sin t * (cos t * x - sin t * y) + cos t * (sin t * x + cos t * y))
      with ((cos t * cos t + sin t * sin t) * y) by ring. rewrite H; ring.
Qed.

Lemma rot_rotT : forall t a, rot t (rotT t a) = a.
Proof.
  intros t [x y]; apply vec2_ext; simpl; pose proof (cs2 t) as H.
  - replace (cos t * (cos t * x + sin t * y) - sin t * (- sin t * x + cos t * y))
      with ((cos t * cos t + sin t * sin t) * x) by ring. rewrite H; ring.
  - replace (sin t * (cos t * x + sin t * y) + cos t * (- sin t * x + cos t * y))
      with ((cos t * cos t + sin t * sin t) * y) by ring. rewrite H; ring.
Qed.

Lemma rot_plus : forall s t a, rot (s + t) a = rot s (rot t a).
Proof.
  intros s t [x y]; apply vec2_ext; simpl; rewrite cos_plus, sin_plus; ring.
Qed.

Lemma rot_0 : forall a, rot 0 a = a.
Proof. intros [x y]; apply vec2_ext; simpl; rewrite cos_0, sin_0; ring. Qed.

Lemma rotT_as_rot : forall t a, rotT t a = rot (- t) a.
Proof. intros t [x y]; apply vec2_ext; simpl; rewrite cos_neg, sin_neg; ring. Qed.

Lemma rot_add : forall t a b, rot t (vadd a b) = vadd (rot t a) (rot t b).
Proof. intros t [ax ay] [bx b_y]; apply vec2_ext; simpl; ring. Qed.
Lemma rot_sub : forall t a b, rot t (vsub a b) = vsub (rot t a) (rot t b).
Proof. intros t [ax ay] [bx b_y]; apply vec2_ext; simpl; ring. Qed.
Lemma rotT_sub : forall t a b, rotT t (vsub a b) = vsub (rotT t a) (rotT t b).
Proof. intros t [ax ay] [bx b_y]; apply vec2_ext; simpl; ring. Qed.

Lemma vnorm2_rot : forall t a, vnorm2 (rot t a) = vnorm2 a.
Proof.
  intros t [x y]; unfold vnorm2; simpl; pose proof (cs2 t) as H.
  replace ((cos t * x - sin t * y) * (cos t * x - sin t * y)
           + (sin t * x + cos t * y) * (sin t * x + cos t * y))
    with ((cos t * cos t + sin t * sin t) * (x * x + y * y)) by ring.
  rewrite H; ring.
Qed.
Lemma vnorm_rot : forall t a, vnorm (rot t a) = vnorm a.
Proof. intros; unfold vnorm; rewrite vnorm2_rot; reflexivity. Qed.
Lemma vnorm2_rotT : forall t a, vnorm2 (rotT t a) = vnorm2 a.
Proof. intros; rewrite rotT_as_rot; apply vnorm2_rot. Qed.
Lemma vnorm2_nonneg : forall a, 0 <= vnorm2 a.
Proof. intros [x y]; unfold vnorm2; simpl; pose proof (Rle_0_sqr x); pose proof (Rle_0_sqr y); unfold Rsqr in *; lra. Qed.
Lemma vnorm_nonneg : forall a, 0 <= vnorm a.
Proof. intros; apply sqrt_pos. Qed.
