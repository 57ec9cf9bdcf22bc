(** Lemmas about the reported poses: five differentiable curves make a rigid motion. *)
From Coq Require Import Reals Lra Lia.
From Coquelicot Require Import Coquelicot.
From Verif Require Import Prelude FeetTraj CoMHeightSpec FeetPose FeetPoseSpec.
Open Scope R_scope.

(** A curve with velocity everywhere. *)
Record curve : Type := MkCurve { cu_p : R -> R; cu_v : R -> R }.
Definition smooth (c : curve) : Prop := forall t, derivable_pt_lim (cu_p c) t (cu_v c t).
Definition at_curve (c : curve) (t : R) (x : pva) : Prop := p_p x = cu_p c t /\ p_v x = cu_v c t /\ derivable_pt_lim (cu_v c) t (p_a x).

Definition body (x y z q w : curve) : moving :=
  MkMotion (fun t => V3 (cu_p x t) (cu_p y t) (cu_p z t)) (fun t => rpy 0 (cu_p q t) (cu_p w t))
           (fun t => V3 (cu_v x t) (cu_v y t) (cu_v z t)) (fun t => mv (rpy_map 0 (cu_p q t) (cu_p w t)) (V3 0 (cu_v q t) (cu_v w t))).

Lemma rpy_rotation : forall r p y, is_rotation (rpy r p y).
Proof.
  intros r p y. pose proof (sin2_cos2 r) as A. pose proof (sin2_cos2 p) as B. pose proof (sin2_cos2 y) as C. unfold Rsqr in *.
  assert (A' : cos r * cos r = 1 - sin r * sin r) by lra. assert (B' : cos p * cos p = 1 - sin p * sin p) by lra. assert (C' : cos y * cos y = 1 - sin y * sin y) by lra.
  unfold is_rotation, rpy, column, dot3, cross. cbn [r1 r2 r3 c1 c2 c3]. repeat split; [ring [A' B' C']| ring [A' B' C'] | ring [A' B' C'] |]. f_equal; ring [A' B' C'].
Qed.

Lemma body_rigid : forall x y z q w, smooth x -> smooth y -> smooth z -> smooth q -> smooth w -> rigid (body x y z q w).
Proof.
  intros x y z q w Hx Hy Hz Hq Hw t. split; [apply rpy_rotation|]. split; [cbn; repeat split; cbn; auto|].
  pose proof (proj2 (is_derive_Reals _ _ _) (Hq t)) as Dq. pose proof (proj2 (is_derive_Reals _ _ _) (Hw t)) as Dw.
  destruct q as [q q'], w as [w w']. cbn [cu_p cu_v] in *.
  pose proof (sin2_cos2 (w t)) as A. unfold Rsqr in A. assert (A' : cos (w t) * cos (w t) = 1 - sin (w t) * sin (w t)) by lra.
  assert (Q1 : ex_derive (fun x => q x) t) by (eexists; exact Dq). assert (Q2 : ex_derive (fun x => w x) t) by (eexists; exact Dw).
  pose proof (is_derive_unique _ _ _ Dq) as E1. pose proof (is_derive_unique _ _ _ Dw) as E2.
  assert (E1' : Derive (fun x => q x) t = q' t) by exact E1. assert (E2' : Derive (fun x => w x) t = w' t) by exact E2.
  intros j Hj. destruct j as [|[|[|j]]]; [| | |lia]; unfold derivative3, body, rpy, rpy_map, mv, dot3, cross, column; cbn [mo_R mo_w cu_p cu_v r1 r2 r3 c1 c2 c3];
    repeat split; apply is_derive_Reals; rewrite ?sin_0, ?cos_0;
    (eapply is_derive_ext; [intros s; rewrite ?sin_0, ?cos_0; reflexivity|]); auto_derive; auto; rewrite ?E1', ?E2'; ring [A'].
Qed.
Lemma body_describes : forall x y z q w t s, smooth q -> smooth w ->
  at_curve x t (s_x s) -> at_curve y t (s_y s) -> at_curve z t (s_z s) -> at_curve q t (s_pitch s) -> at_curve w t (s_yaw s) ->
  describes (body x y z q w) t (report s).
Proof.
  intros x y z q w t s Sq Sw (X1 & X2 & X3) (Y1 & Y2 & Y3) (Z1 & Z2 & Z3) (Q1 & Q2 & Q3) (W1 & W2 & W3).
  unfold describes, body, report. cbn [rp_pos rp_rot rp_lin rp_ang rp_linacc rp_angacc mo_p mo_R mo_v mo_w]. rewrite X1, X2, Y1, Y2, Z1, Z2, Q1, Q2, W1, W2.
  do 4 (split; [reflexivity|]). split; [repeat split; assumption|].
  pose proof (proj2 (is_derive_Reals _ _ _) (Sq t)) as Dq. pose proof (proj2 (is_derive_Reals _ _ _) (Sw t)) as Dw.
  pose proof (proj2 (is_derive_Reals _ _ _) Q3) as Dq2. pose proof (proj2 (is_derive_Reals _ _ _) W3) as Dw2.
  destruct q as [q q'], w as [w w']. cbn [cu_p cu_v] in *.
  assert (P1 : ex_derive (fun x => q x) t) by (eexists; exact Dq). assert (P2 : ex_derive (fun x => w x) t) by (eexists; exact Dw).
  assert (P3 : ex_derive (fun x => q' x) t) by (eexists; exact Dq2). assert (P4 : ex_derive (fun x => w' x) t) by (eexists; exact Dw2).
  assert (E1 : Derive (fun x => q x) t = q' t) by exact (is_derive_unique _ _ _ Dq). assert (E2 : Derive (fun x => w x) t = w' t) by exact (is_derive_unique _ _ _ Dw).
  assert (E3 : Derive (fun x => q' x) t = p_a (s_pitch s)) by exact (is_derive_unique _ _ _ Dq2). assert (E4 : Derive (fun x => w' x) t = p_a (s_yaw s)) by exact (is_derive_unique _ _ _ Dw2).
  unfold derivative3, rpy_map, rpy_map_rate, v3plus, mv, dot3. cbn [r1 r2 r3 c1 c2 c3].
  repeat split; apply is_derive_Reals; auto_derive; repeat split; auto; rewrite ?E1, ?E2, ?E3, ?E4; ring.
Qed.

(** Two cubics that agree at the knot up to the second derivative make one curve. *)
Lemma glue : forall f g k l, f k = g k -> derivable_pt_lim f k l -> derivable_pt_lim g k l ->
  derivable_pt_lim (fun t => if Rle_dec t k then f t else g t) k l.
Proof.
  intros f g k l E F G e He. destruct (F e He) as [d1 F1]. destruct (G e He) as [d2 G1].
  assert (Hd : 0 < Rmin d1 d2) by (apply Rmin_pos; apply cond_pos). exists (mkposreal _ Hd). cbn. intros h Hh Hb.
  assert (Rabs h < d1) by (eapply Rlt_le_trans; [exact Hb|apply Rmin_l]). assert (Rabs h < d2) by (eapply Rlt_le_trans; [exact Hb|apply Rmin_r]).
  destruct (Rle_dec k k); [|lra]. destruct (Rle_dec (k + h) k); [apply F1; auto|]. rewrite E. apply G1; auto.
Qed.
Lemma piecewise : forall (f f' g g' : R -> R) k, (forall t, derivable_pt_lim f t (f' t)) -> (forall t, derivable_pt_lim g t (g' t)) -> f k = g k -> f' k = g' k ->
  forall t, derivable_pt_lim (fun t => if Rle_dec t k then f t else g t) t (if Rle_dec t k then f' t else g' t).
Proof.
  intros f f' g g' k F G E E' t. destruct (Rle_dec t k) as [L|L].
  - destruct (Req_dec t k) as [->|N]; [apply glue; auto; rewrite E'; auto|].
    apply is_derive_Reals. eapply is_derive_ext_loc; [|apply is_derive_Reals; apply F].
    assert (Hd : 0 < k - t) by lra. exists (mkposreal _ Hd). intros y B. unfold ball in B. cbn in B. unfold AbsRing_ball, abs, minus, plus, opp in B. cbn in B.
    assert (y < k) by (unfold Rabs in B; destruct (Rcase_abs _); lra). destruct (Rle_dec y k); [reflexivity|lra].
  - apply is_derive_Reals. eapply is_derive_ext_loc; [|apply is_derive_Reals; apply G].
    assert (Hd : 0 < t - k) by lra. exists (mkposreal _ Hd). intros y B. unfold ball in B. cbn in B. unfold AbsRing_ball, abs, minus, plus, opp in B. cbn in B.
    assert (k < y) by (unfold Rabs in B; destruct (Rcase_abs _); lra). destruct (Rle_dec y k); [lra|reflexivity].
Qed.
Lemma cubic_p : forall a0 a1 a2 a3 t, derivable_pt_lim (fun t => p_p (cubic a0 a1 a2 a3 t)) t (p_v (cubic a0 a1 a2 a3 t)).
Proof. intros. apply is_derive_Reals. cbn. auto_derive; auto. ring. Qed.
Lemma cubic_v : forall a0 a1 a2 a3 t, derivable_pt_lim (fun t => p_v (cubic a0 a1 a2 a3 t)) t (p_a (cubic a0 a1 a2 a3 t)).
Proof. intros. apply is_derive_Reals. cbn. auto_derive; auto. ring. Qed.
Lemma shift_derive : forall (f f' : R -> R) d, (forall t, derivable_pt_lim f t (f' t)) -> forall t, derivable_pt_lim (fun t => f (t - d)) t (f' (t - d)).
Proof.
  intros f f' d H t. apply is_derive_Reals. pose proof (proj2 (is_derive_Reals _ _ _) (H (t - d))) as D.
  evar_last; [apply (is_derive_comp f (fun t => t - d)); [exact D|auto_derive; auto]|]. unfold scal. cbn. unfold mult. cbn. ring.
Qed.
