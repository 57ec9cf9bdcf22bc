(** Properties C17 to C21 and C62: free-space ellipses. *)
From Coq Require Import Reals Lra Lia Psatz List Bool.
From Verif Require Import Prelude EvalTac Ellipse FootSpec EllipseSpec EllipseProofs.
Import ListNotations.
Open Scope R_scope.

(** * C17 *)
Theorem C17_membership : forall a b th cx cy e e' p, ell_set5 a b th cx cy e = (e', true) ->
  (ell_inside e' p = true <-> level a b th (V2 cx cy) p <= 1).
Proof.
  intros a b th cx cy e e' p H. apply set5_is_ell in H. destruct H as (H & _ & _).
  unfold ell_inside. rewrite (proj1 H). cbn [negb]. rewrite Rleb_true, vnorm_le_1, (is_ell_level a b th (V2 cx cy)) by auto. reflexivity.
Qed.
Print Assumptions C17_membership.

(** Sizes from 1e-10 up are accepted and reported back; smaller ones are refused and change nothing. *)
Theorem C17_setter : forall a b th cx cy e,
  (em10 <= a /\ em10 <= b -> exists e', ell_set5 a b th cx cy e = (e', true)
      /\ e_a e' = a /\ e_b e' = b /\ e_th e' = th /\ e_d e' = V2 cx cy /\ e_set e' = true)
  /\ (a < em10 \/ b < em10 -> ell_set5 a b th cx cy e = (e, false)).
Proof.
  intros a b th cx cy e. destruct (set5_cases a b th cx cy e) as [[-> D]|(Ha & Hb & ->)]; split; intros H; try lra; auto.
  eexists. split; [reflexivity|]. repeat split.
Qed.
Print Assumptions C17_setter.

(** An ellipse that was never set, or was cleared, contains every point. *)
Theorem C17_unset : forall e p, e_set e = false -> ell_inside e p = true.
Proof. intros e p H. unfold ell_inside. rewrite H. reflexivity. Qed.
Print Assumptions C17_unset.

(** A 2 x 1 ellipse turned by a right angle at (1, 0): (1, 2) is on its boundary, (3, 0) outside. *)
Example c17_case : exists e, ell_set5 2 1 (PI / 2) 1 0 ell_clear = (e, true)
  /\ ell_inside e (V2 1 2) = true /\ ell_inside e (V2 3 0) = false.
Proof.
  destruct (proj1 (C17_setter 2 1 (PI / 2) 1 0 ell_clear)) as (e & E & _).
  { unfold em10. assert (/ 10 ^ 10 < 1) by (rewrite <- Rinv_1; apply Rinv_lt_contravar; lra). lra. }
  exists e. split; [exact E|]. split.
  - apply (C17_membership 2 1 (PI / 2) 1 0 ell_clear); auto. unfold level, axis_u, axis_v; cbn. rewrite sin_PI2, cos_PI2. lra.
  - apply not_true_is_false. intros K. apply (C17_membership 2 1 (PI / 2) 1 0 ell_clear) in K; auto.
    unfold level, axis_u, axis_v in K; cbn in K. rewrite sin_PI2, cos_PI2 in K. lra.
Qed.

(** * C19 *)
Section C19.
Variables (a b th cx cy : R) (e0 e : ell).
Hypothesis HE : ell_set5 a b th cx cy e0 = (e, true).
Let c : vec2 := V2 cx cy.

Theorem C19_on_ellipse : forall p q i j, ell_intersections e p q = Some (i, j) ->
  level a b th c i = 1 /\ level a b th c j = 1.
Proof. intros p q i j. apply inter_boundary. apply (set5_is_ell _ _ _ _ _ _ _ HE). Qed.

Theorem C19_on_line : forall p q i j, off_band em15 a b th p q -> ell_intersections e p q = Some (i, j) ->
  on_line p q i /\ on_line p q j.
Proof. intros p q i j Ho. apply (inter_on_line a b th c); auto. apply (set5_is_ell _ _ _ _ _ _ _ HE). Qed.

(** The two points are all the common points of line and ellipse. *)
Theorem C19_complete : forall p q r, off_band em15 a b th p q -> p <> q ->
  on_line p q r -> level a b th c r = 1 ->
  exists i j, ell_intersections e p q = Some (i, j) /\ (r = i \/ r = j).
Proof. intros p q r. apply inter_complete. apply (set5_is_ell _ _ _ _ _ _ _ HE). Qed.

(** A negative answer means that line and ellipse do not meet.  Full statement: for all [p <> q].  Missing: the
    points whose difference in ellipse space has a coordinate that is not zero but below 1e-15, where it is false. *)
Theorem C19_no_intersection_partial : forall p q, off_band em15 a b th p q -> p <> q ->
  ell_intersections e p q = None -> forall r, on_line p q r -> level a b th c r <> 1.
Proof. intros p q Ho Hd E r Hl Hb. destruct (C19_complete p q r Ho Hd Hl Hb) as (i & j & E' & _). congruence. Qed.
End C19.
Print Assumptions C19_on_ellipse.
Print Assumptions C19_on_line.
Print Assumptions C19_complete.
Print Assumptions C19_no_intersection_partial.

Lemma em10_le_1 : em10 <= 1.
Proof. unfold em10. rewrite <- Rinv_1. apply Rinv_le_contravar; lra. Qed.

(** Inside the band a line that crosses the unit circle at (3/5, 4/5) is reported as not meeting it. *)
Theorem C19_band_refuted : exists e p q r, ell_set5 1 1 0 0 0 ell_clear = (e, true) /\ p <> q
  /\ on_line p q r /\ level 1 1 0 (V2 0 0) r = 1 /\ ell_intersections e p q = None.
Proof.
  destruct (proj1 (C17_setter 1 1 0 0 0 ell_clear)) as (e & E & _). { pose proof em10_le_1; lra. }
  pose proof em15_pos as He. exists e, (V2 0 (11/10)), (V2 em15 (11/10 - em15 / 2)), (V2 (3/5) (4/5)).
  split; [exact E|]. split. { intros K. injection K. lra. }
  split. { exists (3 / 5 / em15). unfold line_at; cbn. apply vec2_ext; cbn; field; lra. }
  split. { unfold level, axis_u, axis_v; cbn. rewrite cos_0, sin_0. lra. }
  apply set5_is_ell in E. destruct E as (E & _ & _). unfold ell_intersections. rewrite (proj1 E). cbn [negb].
  rewrite !(is_ell_gen 1 1 0 (V2 0 0)) by auto. unfold axis_u, axis_v; cbn. rewrite cos_0, sin_0.
  unfold circle_line; cbn.
  rewrite rltb_t. 2:{ rewrite Rabs_pos_eq; lra. }
  rewrite rltb_f. 2:{ rewrite Rabs_pos_eq; lra. }
  cbn [andb]. rewrite rleb_f; [reflexivity|].
  match goal with |- _ < Rabs ?x => replace x with (11/10) by (field; lra) end. rewrite Rabs_pos_eq; lra.
Qed.
Print Assumptions C19_band_refuted.

(** A slanted line through the unit circle meets the hypotheses. *)
Example c19_case : off_band em15 1 1 0 (V2 (-1) 0) (V2 0 1) /\ V2 (-1) 0 <> V2 0 1
  /\ on_line (V2 (-1) 0) (V2 0 1) (V2 0 1) /\ level 1 1 0 (V2 0 0) (V2 0 1) = 1.
Proof.
  assert (em15 <= 1) by (unfold em15; rewrite <- Rinv_1; apply Rinv_le_contravar; lra).
  split; [|split; [|split]].
  - split; right; unfold axis_u, axis_v; cbn; rewrite cos_0, sin_0; rewrite Rabs_pos_eq; lra.
  - intros K; injection K; lra.
  - exists 1. unfold line_at; cbn. apply vec2_ext; cbn; lra.
  - unfold level, axis_u, axis_v; cbn. rewrite cos_0, sin_0. lra.
Qed.

(** * C18 *)
Section C18.
Variables (a b th cx cy : R) (e0 e : ell).
Hypothesis HE : ell_set5 a b th cx cy e0 = (e, true).
Let c : vec2 := V2 cx cy.
Let HI : is_ell a b th c e := proj1 (set5_is_ell _ _ _ _ _ _ _ HE).

(** Points inside stay, points outside go to the boundary; so the result is always inside. *)
Theorem C18_inside_or_boundary : forall p proj,
  (level a b th c p <= 1 -> ell_project e p proj = p)
  /\ (1 < level a b th c p -> level a b th c (ell_project e p proj) = 1)
  /\ ell_inside e (ell_project e p proj) = true.
Proof.
  intros p proj.
  assert (A : level a b th c p <= 1 -> ell_project e p proj = p).
  { intros L. destruct (project_cases a b th c e p proj HI) as [[_ H]|[H _]]; [exact H|lra]. }
  assert (B : 1 < level a b th c p -> level a b th c (ell_project e p proj) = 1).
  { intros L. apply project_boundary; auto. }
  split; [exact A|]. split; [exact B|]. apply (C17_membership a b th cx cy e0); auto.
  destruct (Rle_dec (level a b th c p) 1) as [L|L]; [rewrite A; auto|]. fold c. rewrite B; lra.
Qed.

(** When the line from the projection centre meets the ellipse, the result is its intersection closest to the point. *)
Theorem C18_closest : forall p proj r, off_band em15 a b th proj p -> 1 < level a b th c p ->
  on_line proj p r -> level a b th c r = 1 ->
  on_line proj p (ell_project e p proj) /\ dist2d p (ell_project e p proj) <= dist2d p r.
Proof.
  intros p proj r Ho Hp Hl Hr.
  assert (Hd : proj <> p). { intros ->. destruct Hl as [t ->]. replace (line_at p p t) with p in Hr by (unfold line_at; apply vec2_ext; cbn; ring). lra. }
  destruct (inter_complete a b th c e proj p r HI Ho Hd Hl Hr) as (j & k & E & D).
  destruct (project_cases a b th c e p proj HI) as [[N _]|(_ & [(i & Ei & ->)|(N & _)])]; [lra| |].
  - apply closest_spec in Ei. destruct Ei as (j' & k' & E' & D' & D1 & D2). rewrite E in E'. injection E' as <- <-.
    destruct (inter_on_line a b th c e proj p j k HI Ho E) as [L1 L2].
    split; [destruct D'; subst; auto|]. destruct D; subst; auto.
  - apply closest_some in E. destruct E as [i E]. congruence.
Qed.

(** From a centre inside the ellipse the point moves along the segment towards the centre. *)
Theorem C18_segment : forall p proj, off_band em15 a b th proj p -> 1 < level a b th c p -> level a b th c proj <= 1 ->
  exists t, 0 <= t < 1 /\ ell_project e p proj = line_at proj p t.
Proof.
  intros p proj Ho Hp Hq.
  assert (Ha : 0 < a) by apply HI. assert (Hb : 0 < b) by apply HI.
  assert (Hd : proj <> p) by (intros ->; lra).
  destruct (level_quad a b th c proj p Ha Hb Hd) as (A & B & HA & EQ).
  set (k := level a b th c proj) in *.
  assert (H1 : 1 < A + B + k). { pose proof (EQ 1) as Z. rewrite line_1 in Z. lra. }
  (* the root in [0,1) *)
  set (D := B * B - 4 * A * (k - 1)).
  assert (HD : 0 <= D) by (unfold D; nra).
  destruct (quad_root A B (k - 1) (Rgt_not_eq _ _ HA) HD) as [R1 _]. cbv zeta in R1. fold D in R1.
  set (t2 := (- B + sqrt D) / (2 * A)) in *.
  pose proof (sqrt_sqrt D HD) as SD. pose proof (sqrt_pos D) as SP.
  assert (E2 : 2 * A * t2 = - B + sqrt D) by (unfold t2; field; lra).
  assert (T0 : 0 <= t2).
  { assert (B <= sqrt D). { destruct (Rle_dec B 0); [lra|]. apply Rsqr_incr_0; unfold Rsqr; try lra. rewrite SD. unfold D. nra. }
    apply (Rmult_le_reg_l (2 * A)); lra. }
  assert (T1 : t2 < 1).
  { apply Rnot_le_lt. intros N. assert (2 * A * 1 <= 2 * A * t2) by (apply Rmult_le_compat_l; lra).
    assert (C1 : D < (2 * A + B) * (2 * A + B)).
    { replace ((2 * A + B) * (2 * A + B)) with (D + 4 * A * (A + B + k - 1)) by (unfold D; ring).
      assert (0 < 4 * A * (A + B + k - 1)) by (apply Rmult_lt_0_compat; lra). lra. }
    assert ((2 * A + B) * (2 * A + B) <= sqrt D * sqrt D) by (apply Rmult_le_compat; lra). lra. }
  destruct (C18_closest p proj (line_at proj p t2) Ho Hp) as [[s Es] Hs].
  { exists t2; reflexivity. } { rewrite EQ. lra. }
  exists s. split; [|exact Es]. rewrite Es, !line_dist in Hs.
  pose proof (project_boundary a b th c e p proj HI Hp) as Hbd. rewrite Es, EQ in Hbd.
  assert (Hdp : 0 < dist2d p proj) by (apply dist2d_pos; auto).
  assert (Hle : Rabs (1 - s) <= 1 - t2).
  { apply (Rmult_le_reg_r (dist2d p proj)); auto. rewrite (Rabs_pos_eq (1 - t2)) in Hs by lra. exact Hs. }
  assert (t2 <= s). { unfold Rabs in Hle. destruct (Rcase_abs _); lra. }
  split; [lra|].
  (* s is a root not above the convex level at 1 *)
  apply Rnot_le_lt. intros N.
  assert (0 <= (s - 1) * (A * (s + 1) + B)).
  { apply Rmult_le_pos; [lra|]. assert (A * 1 <= A * s) by (apply Rmult_le_compat_l; lra). lra. }
  lra.
Qed.

(** When the line misses the ellipse the point moves straight towards the centre of the ellipse. *)
Theorem C18_fallback : forall p proj, ell_intersections e proj p = None -> 1 < level a b th c p ->
  ell_project e p proj = line_at c p (/ sqrt (level a b th c p)).
Proof.
  intros p proj E L. destruct (project_cases a b th c e p proj HI) as [[N _]|(_ & [(i & Ei & _)|(_ & N)])]; [lra| |exact N].
  unfold ell_closest in Ei. rewrite E in Ei. discriminate.
Qed.
End C18.
Print Assumptions C18_inside_or_boundary.
Print Assumptions C18_closest.
Print Assumptions C18_segment.
Print Assumptions C18_fallback.

(** An unset ellipse moves nothing. *)
Theorem C18_unset : forall e p proj, e_set e = false -> ell_project e p proj = p.
Proof. intros e p proj H. unfold ell_project. rewrite H. reflexivity. Qed.
Print Assumptions C18_unset.

(** From the origin of the unit disc, (3, 4) is sent to a point of the segment. *)
Example c18_case : off_band em15 1 1 0 (V2 0 0) (V2 3 4) /\ 1 < level 1 1 0 (V2 0 0) (V2 3 4) /\ level 1 1 0 (V2 0 0) (V2 0 0) <= 1.
Proof.
  assert (em15 <= 1) by (unfold em15; rewrite <- Rinv_1; apply Rinv_le_contravar; lra).
  unfold off_band, clearly, level, axis_u, axis_v; cbn; rewrite cos_0, sin_0.
  split; [split; right; rewrite Rabs_pos_eq; lra|]. lra.
Qed.

(** * C20 *)
(** Exactly which image matrices of ellipses are accepted again.  Full statement: all of them.  Missing (and false):
    ellipses of area below 1e-10 pi and those turned by more than 45 degrees from the axes. *)
Theorem C20_round_trip_partial : forall a b th cx cy e0 e e1, ell_set5 a b th cx cy e0 = (e, true) ->
  em10 <= a * b -> Rabs (sin th) <= Rabs (cos th) ->
  exists e', ell_setM (e_C e) (e_d e) e1 = (e', true)
    /\ (forall p, ell_inside e' p = ell_inside e p)
    /\ e_a e' = a /\ e_b e' = b /\ cos (e_th e') = cos th /\ sin (e_th e') = sin th /\ e_d e' = V2 cx cy.
Proof.
  intros a b th cx cy e0 e e1 H Hab Hcs. apply set5_is_ell in H. destruct H as (H & _ & _).
  destruct H as (Hs & HC & HI & Hd & _ & _ & _ & Ha & Hb). rewrite HC, Hd. change (M2 _ _ _ _) with (image a b th).
  rewrite setM_image by auto. destruct (Rlt_dec (a * b) em10); [lra|]. destruct (Rlt_dec _ _); [lra|].
  eexists. split; [reflexivity|]. split.
  - intros p. unfold ell_inside. rewrite Hs. cbn [e_set negb]. unfold ell_gen. cbn [e_Ci e_d]. rewrite HI, HC, Hd. reflexivity.
  - destruct (atan2_image a b th Ha) as [P Q]. cbn in P, Q. cbn. repeat split; auto.
Qed.
Print Assumptions C20_round_trip_partial.

Theorem C20_refused : forall a b th cx cy e0 e e1, ell_set5 a b th cx cy e0 = (e, true) ->
  a * b < em10 \/ Rabs (cos th) < Rabs (sin th) -> ell_setM (e_C e) (e_d e) e1 = (e1, false).
Proof.
  intros a b th cx cy e0 e e1 H D. apply set5_is_ell in H. destruct H as (H & _ & _).
  destruct H as (Hs & HC & HI & Hd & _ & _ & _ & Ha & Hb). rewrite HC. change (M2 _ _ _ _) with (image a b th).
  rewrite setM_image by auto. destruct (Rlt_dec (a * b) em10); [reflexivity|]. destruct (Rlt_dec _ _); [reflexivity|]. lra.
Qed.
Print Assumptions C20_refused.

(** The unit disc, turned by 90 degrees, cannot be rebuilt from its own image matrix. *)
Theorem C20_round_trip_refuted : exists e, ell_set5 1 1 (PI / 2) 0 0 ell_clear = (e, true)
  /\ forall e1, snd (ell_setM (e_C e) (e_d e) e1) = false.
Proof.
  destruct (proj1 (C17_setter 1 1 (PI / 2) 0 0 ell_clear)) as (e & E & _). { pose proof em10_le_1; lra. }
  exists e. split; [exact E|]. intros e1. rewrite (C20_refused 1 1 (PI / 2) 0 0 ell_clear); auto.
  right. rewrite cos_PI2, sin_PI2, Rabs_R0, Rabs_R1. lra.
Qed.
Print Assumptions C20_round_trip_refuted.

Example c20_case : em10 <= 3 * 2 /\ Rabs (sin (PI / 6)) <= Rabs (cos (PI / 6)).
Proof.
  pose proof em10_le_1. split; [lra|]. rewrite sin_PI6, cos_PI6. assert (1 <= sqrt 3) by (rewrite <- sqrt_1 at 1; apply sqrt_le_1_alt; lra).
  rewrite !Rabs_pos_eq; lra.
Qed.

(** * C62 *)
(** An accepted image matrix has the reported semi-axes and angle.  Full statement: the matrix is the image matrix of
    the reported axes.  Proved: the first column and the product of the semi-axes are right.  Missing (and false):
    the second column. *)
Theorem C62_reported_axes_partial : forall C d e e', ell_setM C d e = (e', true) ->
  cos (e_th e') * e_a e' = m00 C /\ sin (e_th e') * e_a e' = m10 C /\ Rabs (mdet C - e_a e' * e_b e') <= em10.
Proof.
  intros C d e e'. unfold ell_setM. cbv zeta. pose proof em10_pos as He.
  destruct (Rltb (mdet C) em10) eqn:Ed; [discriminate|]. apply Rltb_false in Ed.
  set (r := sqrt (m00 C * m00 C + m10 C * m10 C)).
  assert (Hp : 0 < m00 C * m00 C + m10 C * m10 C).
  { unfold mdet in Ed. destruct (Req_dec (m00 C) 0); destruct (Req_dec (m10 C) 0); nra. }
  assert (Hr : 0 < r) by (apply sqrt_lt_R0; auto). assert (Er : r * r = m00 C * m00 C + m10 C * m10 C) by (apply sqrt_sqrt; lra).
  destruct (atan2_polar (m00 C) (m10 C) r Hr Er) as [EC ES]. rewrite EC, ES. 
  destruct (Rgtb (Rabs (m10 C / r)) (Rabs (m00 C / r))) eqn:G.
  - apply Rltb_true in G. assert (Hs : m10 C <> 0).
    { intros Z. rewrite Z in G. unfold Rdiv in G. rewrite Rmult_0_l, Rabs_R0 in G. pose proof (Rabs_pos (m00 C * / r)). lra. }
    rcases; [discriminate|]. intros H; injection H as <-. cbn. rewrite EC, ES.
    split; [field; lra|]. split; [field; lra|]. lra.
  - unfold Rgtb in G. apply Rltb_false in G. assert (Hc : m00 C <> 0).
    { intros Z. rewrite Z in G. unfold Rdiv in G. rewrite Rmult_0_l, Rabs_R0 in G.
      assert (m10 C * / r <> 0). { apply Rmult_integral_contrapositive; split; [nra|apply Rinv_neq_0_compat; lra]. }
      pose proof (Rabs_pos_lt _ H). lra. }
    rcases; [discriminate|]. intros H; injection H as <-. cbn. rewrite EC, ES.
    split; [field; lra|]. split; [field; lra|]. lra.
Qed.
Print Assumptions C62_reported_axes_partial.

(** A sheared matrix is accepted as the unit disc although (10, 1) belongs to the set it describes. *)
Theorem C62_sheared_refuted : exists e' e'' p, ell_setM (M2 1 10 0 1) (V2 0 0) ell_clear = (e', true)
  /\ ell_set5 (e_a e') (e_b e') (e_th e') 0 0 ell_clear = (e'', true)
  /\ ell_inside e' p = true /\ ell_inside e'' p = false.
Proof.
  assert (Ea : atan2 0 1 = 0). { unfold atan2. destruct (Rlt_dec 0 1); [|lra]. unfold Rdiv. rewrite Rmult_0_l. apply atan_0. }
  pose proof em10_le_1 as H1. pose proof em10_pos as H0.
  assert (E : ell_setM (M2 1 10 0 1) (V2 0 0) ell_clear = (MkEll (M2 1 10 0 1) (minv (M2 1 10 0 1)) (V2 0 0) 1 1 0 true, true)).
  { unfold ell_setM, mdet. cbn [m00 m01 m10 m11]. cbv zeta. rewrite Ea, sin_0, cos_0.
    rewrite rltb_f by lra. rewrite Rabs_R0, Rabs_R1, rgtb_f by lra. rewrite rgtb_f.
    - repeat f_equal; field.
    - replace (1 * 1 - 10 * 0 - 1 / 1 * (1 / 1)) with 0 by field. rewrite Rabs_R0. lra. }
  destruct (proj1 (C17_setter 1 1 0 0 0 ell_clear)) as (e'' & E'' & _); [lra|].
  exists (MkEll (M2 1 10 0 1) (minv (M2 1 10 0 1)) (V2 0 0) 1 1 0 true), e'', (V2 10 1).
  split; [exact E|]. split; [exact E''|]. split.
  - unfold ell_inside. cbn [e_set negb]. apply Rleb_true, vnorm_le_1. unfold ell_gen, minv, mdet, mapply, vsub; cbn. lra.
  - apply not_true_is_false. intros K. apply (C17_membership 1 1 0 0 0 ell_clear) in K; auto.
    unfold level, axis_u, axis_v in K; cbn in K. rewrite sin_0, cos_0 in K. lra.
Qed.
Print Assumptions C62_sheared_refuted.

(** * C21 *)
(** When the matrix entry the code leaves unwritten happens to be zero, the result is the unit tangent.  Full
    statement: for every content of that entry.  Missing (and false): any other content. *)
Theorem C21_tangent_partial : forall a b th cx cy e0 e phi, ell_set5 a b th cx cy e0 = (e, true) ->
  let c := V2 cx cy in
  let v := ell_tangent 0 e (V2 (curve_x a b th c phi) (curve_y a b th c phi)) in
  vx v ^ 2 + vy v ^ 2 = 1
  /\ exists k, 0 < k /\ derivable_pt_lim (curve_x a b th c) phi (k * vx v) /\ derivable_pt_lim (curve_y a b th c) phi (k * vy v).
Proof.
  intros a b th cx cy e0 e phi H c v. apply set5_is_ell in H. destruct H as (H & Ha & Hb).
  destruct (tangent_spec a b th c e phi H Ha Hb) as [N E]. cbv zeta in N, E.
  set (dx := - a * sin phi * cos th - b * cos phi * sin th) in *.
  set (dy := - a * sin phi * sin th + b * cos phi * cos th) in *.
  set (n := sqrt (dx * dx + dy * dy)) in *. pose proof em10_pos as He.
  assert (Hn : n * n = dx * dx + dy * dy). { apply sqrt_sqrt. nra. }
  unfold v; rewrite E; cbn [vx vy]. split.
  - replace ((dx / n) ^ 2 + (dy / n) ^ 2) with ((dx * dx + dy * dy) / (n * n)) by (field; lra). rewrite Hn. field. rewrite <- Hn. nra.
  - exists n. split; [lra|]. replace (n * (dx / n)) with dx by (field; lra). replace (n * (dy / n)) with dy by (field; lra).
    pose proof (derivable_pt_lim_sin phi) as DS. pose proof (derivable_pt_lim_cos phi) as DC.
    assert (L : forall k0 k1 k2, derivable_pt_lim (fun z => k0 + k1 * cos z + k2 * sin z) phi (0 + k1 * (- sin phi) + k2 * cos phi)).
    { intros. apply (derivable_pt_lim_plus (fun z => k0 + k1 * cos z) (fun z => k2 * sin z)).
      - apply (derivable_pt_lim_plus (fun _ => k0) (fun z => k1 * cos z)); [apply derivable_pt_lim_const|].
        apply (derivable_pt_lim_scal cos k1); auto.
      - apply (derivable_pt_lim_scal sin k2); auto. }
    split.
    + replace dx with (0 + (a * cos th) * (- sin phi) + (- (b * sin th)) * cos phi) by (unfold dx; ring).
      apply (derivable_pt_lim_ext_eq (fun z => vx c + (a * cos th) * cos z + (- (b * sin th)) * sin z)); [|apply L].
      intros z. unfold curve_x; ring.
    + replace dy with (0 + (a * sin th) * (- sin phi) + (b * cos th) * cos phi) by (unfold dy; ring).
      apply (derivable_pt_lim_ext_eq (fun z => vy c + (a * sin th) * cos z + (b * cos th) * sin z)); [|apply L].
      intros z. unfold curve_y; ring.
Qed.
Print Assumptions C21_tangent_partial.

(** Two executions with different contents of the unwritten entry disagree on the same ellipse and point. *)
Theorem C21_unwritten_entry_refuted : exists e p g1 g2, ell_set5 1 1 0 0 0 ell_clear = (e, true) /\ ell_inside e p = true
  /\ ell_tangent g1 e p <> ell_tangent g2 e p.
Proof.
  destruct (proj1 (C17_setter 1 1 0 0 0 ell_clear)) as (e & E & _). { pose proof em10_le_1; lra. }
  pose proof (set5_is_ell _ _ _ _ _ _ _ E) as (HI & _ & _).
  assert (EG : ell_gen e (V2 0 1) = V2 0 1).
  { rewrite (is_ell_gen 1 1 0 (V2 0 0)) by auto. unfold axis_u, axis_v; cbn; rewrite cos_0, sin_0. apply vec2_ext; cbn; field. }
  assert (HC : e_C e = M2 1 0 0 1). { rewrite (proj1 (proj2 HI)), cos_0, sin_0. f_equal; ring. }
  assert (H15 : em15 < 1) by (unfold em15; rewrite <- Rinv_1; apply Rinv_lt_contravar; lra).
  exists e, (V2 0 1), 0, 1. split; [exact E|]. split.
  - apply (C17_membership 1 1 0 0 0 ell_clear); auto. unfold level, axis_u, axis_v; cbn; rewrite cos_0, sin_0. lra.
  - unfold ell_tangent. rewrite EG, HC. unfold mapply; cbn.
    assert (N1 : 1 <= vnorm (V2 (1 * (0 * 0 + -1 * 1) + 0 * (1 * 0 + 0 * 1)) (0 * (0 * 0 + -1 * 1) + 1 * (1 * 0 + 0 * 1)))).
    { pose proof (vnorm_sq (V2 (1 * (0 * 0 + -1 * 1) + 0 * (1 * 0 + 0 * 1)) (0 * (0 * 0 + -1 * 1) + 1 * (1 * 0 + 0 * 1)))) as Q.
      pose proof (vnorm_nonneg (V2 (1 * (0 * 0 + -1 * 1) + 0 * (1 * 0 + 0 * 1)) (0 * (0 * 0 + -1 * 1) + 1 * (1 * 0 + 0 * 1)))). cbn [vx vy] in Q. nra. }
    assert (N2 : 1 <= vnorm (V2 (1 * (0 * 0 + -1 * 1) + 0 * (1 * 0 + 1 * 1)) (0 * (0 * 0 + -1 * 1) + 1 * (1 * 0 + 1 * 1)))).
    { pose proof (vnorm_sq (V2 (1 * (0 * 0 + -1 * 1) + 0 * (1 * 0 + 1 * 1)) (0 * (0 * 0 + -1 * 1) + 1 * (1 * 0 + 1 * 1)))) as Q.
      pose proof (vnorm_nonneg (V2 (1 * (0 * 0 + -1 * 1) + 0 * (1 * 0 + 1 * 1)) (0 * (0 * 0 + -1 * 1) + 1 * (1 * 0 + 1 * 1)))). cbn [vx vy] in Q. nra. }
    rewrite !rgtb_t by lra. intros K. injection K as K1 K2.
    set (n2 := vnorm (V2 (1 * (0 * 0 + -1 * 1) + 0 * (1 * 0 + 1 * 1)) (0 * (0 * 0 + -1 * 1) + 1 * (1 * 0 + 1 * 1)))) in *.
    assert (0 < / n2) by (apply Rinv_0_lt_compat; lra). unfold Rdiv in K2. lra.
Qed.
Print Assumptions C21_unwritten_entry_refuted.
