(** Proofs about FreeSpaceEllipse. *)
From Coq Require Import Reals Lra Lia Psatz List Bool.
From Verif Require Import Prelude EvalTac Ellipse FootSpec EllipseSpec.
Open Scope R_scope.

(** ** Invertibility *)
Record ell_wf (e : ell) : Prop := MkWf { wf_det : 0 < mdet (e_C e); wf_inv : e_Ci e = minv (e_C e) }.

Lemma em10_pos : 0 < em10. Proof. unfold em10; apply Rinv_0_lt_compat, pow_lt; lra. Qed.
Lemma em15_pos : 0 < em15. Proof. unfold em15; apply Rinv_0_lt_compat, pow_lt; lra. Qed.

Lemma cs1 : forall t, cos t * cos t + sin t * sin t = 1.
Proof. intros t. pose proof (sin2_cos2 t) as H. unfold Rsqr in H. lra. Qed.

Lemma set5_det : forall a b th, mdet (M2 (cos th * a) (- sin th * b) (sin th * a) (cos th * b)) = a * b.
Proof. intros. unfold mdet; cbn. transitivity (a * b * (cos th * cos th + sin th * sin th)); [ring|]. rewrite cs1; ring. Qed.

Lemma clear_wf : ell_wf ell_clear.
Proof. constructor; unfold ell_clear, mdet, minv; cbn; [lra|]. unfold mdet; cbn. f_equal; field. Qed.

Lemma set5_cases : forall a b th cx cy e,
  (ell_set5 a b th cx cy e = (e, false) /\ (a < em10 \/ b < em10)) \/
  (em10 <= a /\ em10 <= b /\ ell_set5 a b th cx cy e =
    (MkEll (M2 (cos th * a) (- sin th * b) (sin th * a) (cos th * b)) (minv (M2 (cos th * a) (- sin th * b) (sin th * a) (cos th * b)))
       (V2 cx cy) a b th true, true)).
Proof.
  intros. unfold ell_set5. destruct (Rltb a em10) eqn:Ea; [apply Rltb_true in Ea; auto|].
  destruct (Rltb b em10) eqn:Eb; [apply Rltb_true in Eb; auto|].
  apply Rltb_false in Ea. apply Rltb_false in Eb. right. split; [exact Ea|]. split; [exact Eb|reflexivity].
Qed.

Lemma set5_wf : forall a b th cx cy e, ell_wf e -> ell_wf (fst (ell_set5 a b th cx cy e)).
Proof.
  intros a b th cx cy e H. destruct (set5_cases a b th cx cy e) as [[-> _]|(Ha & Hb & ->)]; [exact H|].
  constructor; cbn [fst e_C e_Ci]; [|reflexivity]. rewrite set5_det. pose proof em10_pos. apply Rmult_lt_0_compat; lra.
Qed.

Lemma setM_wf : forall C d e, ell_wf e -> ell_wf (fst (ell_setM C d e)).
Proof.
  intros C d e H. unfold ell_setM. cbv zeta. destruct (Rltb (mdet C) em10) eqn:E; [exact H|].
  apply Rltb_false in E. pose proof em10_pos. destruct (if Rgtb _ _ then _ else _) as [a b].
  rcases; [exact H|]. constructor; cbn; [lra|reflexivity].
Qed.

Lemma gen_out : forall e w, ell_wf e -> ell_gen e (ell_out e w) = w.
Proof.
  intros e [x y] [Hd Hi]. unfold ell_gen, ell_out. rewrite Hi. destruct (e_C e) as [a b c d]. unfold mdet in Hd; cbn in Hd.
  unfold mapply, vsub, vadd, minv, mdet; cbn. apply vec2_ext; cbn; field; lra.
Qed.

Lemma out_gen : forall e p, ell_wf e -> ell_out e (ell_gen e p) = p.
Proof.
  intros e [x y] [Hd Hi]. unfold ell_gen, ell_out. rewrite Hi. destruct (e_C e) as [a b c d]. unfold mdet in Hd; cbn in Hd.
  unfold mapply, vsub, vadd, minv, mdet; cbn. apply vec2_ext; cbn; field; lra.
Qed.

Lemma gen_line : forall e p q t, ell_gen e (line_at p q t) = line_at (ell_gen e p) (ell_gen e q) t.
Proof. intros e p q t. unfold ell_gen, line_at, mapply, vsub; cbn. apply vec2_ext; cbn; ring. Qed.

Lemma gen_inj : forall e p q, ell_wf e -> ell_gen e p = ell_gen e q -> p = q.
Proof. intros e p q H E. rewrite <- (out_gen e p H), <- (out_gen e q H), E. reflexivity. Qed.

Lemma gen_on_line : forall e p q r, ell_wf e -> (on_line p q r <-> on_line (ell_gen e p) (ell_gen e q) (ell_gen e r)).
Proof.
  intros e p q r H. split; intros [t E]; exists t.
  - rewrite E. apply gen_line.
  - apply (gen_inj e); auto. rewrite E, gen_line. reflexivity.
Qed.

Lemma vnorm_sq : forall v, vnorm v * vnorm v = vx v * vx v + vy v * vy v.
Proof. intros v. unfold vnorm. try unfold vnorm2. rewrite sqrt_sqrt; [reflexivity|]. nra. Qed.
Lemma vnorm_nonneg : forall v, 0 <= vnorm v.
Proof. intros v. unfold vnorm. apply sqrt_pos. Qed.
Lemma vnorm_1 : forall v, vnorm v = 1 <-> vx v * vx v + vy v * vy v = 1.
Proof. intros v. pose proof (vnorm_sq v). pose proof (vnorm_nonneg v). split; intros; nra. Qed.
Lemma vnorm_le_1 : forall v, vnorm v <= 1 <-> vx v * vx v + vy v * vy v <= 1.
Proof. intros v. pose proof (vnorm_sq v). pose proof (vnorm_nonneg v). split; intros; nra. Qed.

(** ** Geometric meaning *)
(** [e] is the ellipse with these axes. *)
Definition is_ell (a b th : R) (c : vec2) (e : ell) : Prop :=
  e_set e = true /\ e_C e = M2 (cos th * a) (- sin th * b) (sin th * a) (cos th * b)
  /\ e_Ci e = minv (e_C e) /\ e_d e = c /\ e_a e = a /\ e_b e = b /\ e_th e = th /\ 0 < a /\ 0 < b.

Lemma is_ell_wf : forall a b th c e, is_ell a b th c e -> ell_wf e.
Proof. intros a b th c e (_ & HC & HI & _ & _ & _ & _ & Ha & Hb). constructor; auto. rewrite HC, set5_det. nra. Qed.

Lemma is_ell_gen : forall a b th c e p, is_ell a b th c e ->
  ell_gen e p = V2 (axis_u th c p / a) (axis_v th c p / b).
Proof.
  intros a b th c e p (_ & HC & HI & Hd & _ & _ & _ & Ha & Hb). unfold ell_gen. rewrite HI, HC, Hd.
  unfold minv. rewrite set5_det. unfold mapply, vsub, axis_u, axis_v; cbn. apply vec2_ext; cbn; field; lra.
Qed.

Lemma is_ell_level : forall a b th c e p, is_ell a b th c e ->
  vx (ell_gen e p) * vx (ell_gen e p) + vy (ell_gen e p) * vy (ell_gen e p) = level a b th c p.
Proof. intros. rewrite (is_ell_gen a b th c) by auto. unfold level; cbn. ring. Qed.

Lemma set5_is_ell : forall a b th cx cy e e', ell_set5 a b th cx cy e = (e', true) -> is_ell a b th (V2 cx cy) e' /\ em10 <= a /\ em10 <= b.
Proof.
  intros a b th cx cy e e' H. destruct (set5_cases a b th cx cy e) as [[E _]|(Ha & Hb & E)]; rewrite E in H; [discriminate|].
  injection H as <-. pose proof em10_pos. split; [|auto]. repeat split; cbn; auto; lra.
Qed.

(** ** Unit circle and line *)
Definition on_circle (w : vec2) : Prop := vx w * vx w + vy w * vy w = 1.

Lemma on_line_eq : forall p q r, (vx q - vx p <> 0 \/ vy q - vy p <> 0) ->
  (on_line p q r <-> (vy p - vy q) * vx r + (vx q - vx p) * vy r + (vx p * vy q - vx q * vy p) = 0).
Proof.
  intros [px py] [qx qy] [x y] Hd; cbn in *. split.
  - intros [t E]. injection E as -> ->. cbn. ring.
  - intros H. set (u := qx - px) in *. set (v := qy - py) in *.
    assert (Hn : u * u + v * v <> 0) by (destruct Hd; nra).
    exists (((x - px) * u + (y - py) * v) / (u * u + v * v)). unfold line_at; cbn.
    assert (H' : v * (x - px) = u * (y - py)) by (unfold u, v in *; nra).
    apply vec2_ext; cbn; fold u; fold v.
    + assert (K : x - px = ((x - px) * u + (y - py) * v) * u / (u * u + v * v)).
      { replace (((x - px) * u + (y - py) * v) * u) with ((x - px) * (u * u + v * v) + v * (u * (y - py) - v * (x - px))) by ring.
        rewrite <- H'. field. auto. }
      unfold Rdiv in *. lra.
    + assert (K : y - py = ((x - px) * u + (y - py) * v) * v / (u * u + v * v)).
      { replace (((x - px) * u + (y - py) * v) * v) with ((y - py) * (u * u + v * v) + u * (v * (x - px) - u * (y - py))) by ring.
        rewrite H'. field. auto. }
      unfold Rdiv in *. lra.
Qed.

Lemma sqrt1m : forall y, Rabs y <= 1 -> sqrt (1 - y * y) * sqrt (1 - y * y) = 1 - y * y.
Proof. intros y H. apply sqrt_sqrt. unfold Rabs in H. destruct (Rcase_abs y); nra. Qed.

Lemma quad_root : forall a b c, a <> 0 -> 0 <= b * b - 4 * a * c ->
  let r1 := (- b + sqrt (b * b - 4 * a * c)) / (2 * a) in
  let r2 := (- b - sqrt (b * b - 4 * a * c)) / (2 * a) in
  a * r1 * r1 + b * r1 + c = 0 /\ a * r2 * r2 + b * r2 + c = 0.
Proof.
  intros a b c Ha HD r1 r2. set (D := b * b - 4 * a * c) in *. pose proof (sqrt_sqrt D HD) as HS.
  set (s := sqrt D) in *. assert (Hc : c = (b * b - s * s) / (4 * a)) by (rewrite HS; unfold D; field; auto).
  rewrite Hc. unfold r1, r2. split; field; auto.
Qed.

Lemma quad_only : forall a b c x, 0 < a -> a * x * x + b * x + c = 0 ->
  0 <= b * b - 4 * a * c /\
  (x = (- b + sqrt (b * b - 4 * a * c)) / (2 * a) \/ x = (- b - sqrt (b * b - 4 * a * c)) / (2 * a)).
Proof.
  intros a b c x Ha H. assert (E : b * b - 4 * a * c = (2 * a * x + b) * (2 * a * x + b)).
  { replace c with (- (a * x * x + b * x)) by lra. ring. }
  rewrite E. split; [apply Rle_0_sqr|]. change ((2 * a * x + b) * (2 * a * x + b)) with (Rsqr (2 * a * x + b)). rewrite sqrt_Rsqr_abs.
  unfold Rabs. destruct (Rcase_abs _); [right|left]; field; lra.
Qed.

Lemma circle_sound : forall p q i j, circle_line p q = Some (i, j) -> on_circle i /\ on_circle j.
Proof.
  intros p q i j. unfold circle_line, on_circle. cbv zeta.
  set (al := vy p - vy q). set (be := vx q - vx p). set (ga := vx p * vy q - vx q * vy p).
  destruct (Rltb (Rabs al) em15) eqn:Ea; destruct (Rltb (Rabs be) em15) eqn:Eb; cbn [andb]; try discriminate.
  - rcases; [|discriminate]. intros H; injection H as <- <-; cbn. rewrite Rmult_opp_opp, sqrt1m by auto. lra.
  - rcases; [|discriminate]. intros H; injection H as <- <-; cbn. rewrite Rmult_opp_opp, sqrt1m by auto. lra.
  - set (sg := - al / be) in *. set (de := - ga / be) in *. rcases; [discriminate|]. intros H; injection H as <- <-; cbn.
    assert (HA : 1 + sg * sg <> 0) by nra.
    destruct (quad_root (1 + sg * sg) (2 * de * sg) (de * de - 1) HA) as [P Q]; [lra|]. cbv zeta in P, Q. split; lra.
Qed.

(** Threshold conditions in ellipse space. *)
Definition sharp (p q : vec2) : Prop :=
  clearly em15 (vx q - vx p) /\ clearly em15 (vy q - vy p).

Lemma circle_on_line : forall p q i j, sharp p q -> circle_line p q = Some (i, j) -> on_line p q i /\ on_line p q j.
Proof.
  intros p q i j [Sx Sy]. unfold circle_line. cbv zeta. pose proof em15_pos as He.
  destruct (Rltb (Rabs (vy p - vy q)) em15) eqn:Ea; destruct (Rltb (Rabs (vx q - vx p)) em15) eqn:Eb; cbn [andb]; try discriminate;
    try apply Rltb_true in Ea; try apply Rltb_true in Eb; try apply Rltb_false in Ea; try apply Rltb_false in Eb.
  - rcases; [|discriminate]. intros H; injection H as <- <-.
    assert (Hy : vy q - vy p = 0). { destruct Sy as [|Sy]; auto. rewrite Rabs_minus_sym in Ea. lra. }
    assert (Hx : vx q - vx p <> 0). { intros Z. rewrite Z, Rabs_R0 in Eb. lra. }
    split; apply on_line_eq; auto; cbn; replace (vy p - vy q) with 0 by lra; field; auto.
  - rcases; [|discriminate]. intros H; injection H as <- <-.
    assert (Hx : vx q - vx p = 0). { destruct Sx as [|Sx]; auto. lra. }
    assert (Hy : vy p - vy q <> 0). { intros Z. rewrite Z, Rabs_R0 in Ea. lra. }
    split; apply on_line_eq; auto; cbn; try (right; lra); rewrite Hx; field; auto.
  - assert (Hx : vx q - vx p <> 0). { intros Z. rewrite Z, Rabs_R0 in Eb. lra. }
    rcases; [discriminate|]. intros H; injection H as <- <-.
    split; apply on_line_eq; auto; cbn;
    match goal with |- context [?n / (2 * (1 + ?s * ?s))] => generalize (n / (2 * (1 + s * s))) end; intros z; field; auto.
Qed.

Definition distinct_points (p q : vec2) : Prop := p <> q.

(** Off the band: the routine answers whether the line meets the circle, and its two points are all the common points. *)
Lemma circle_complete : forall p q r, sharp p q -> p <> q -> on_line p q r -> on_circle r ->
  exists i j, circle_line p q = Some (i, j) /\ (r = i \/ r = j).
Proof.
  intros p q r [Sx Sy] Hpq Hl Hc. pose proof em15_pos as He.
  assert (Hd : vx q - vx p <> 0 \/ vy q - vy p <> 0).
  { destruct (Req_dec (vx q - vx p) 0); [|auto]. destruct (Req_dec (vy q - vy p) 0); [|auto]. exfalso; apply Hpq. apply vec2_ext; lra. }
  apply on_line_eq in Hl; auto. unfold on_circle in Hc. unfold circle_line. cbv zeta.
  destruct (Rltb (Rabs (vy p - vy q)) em15) eqn:Ea; destruct (Rltb (Rabs (vx q - vx p)) em15) eqn:Eb; cbn [andb];
    try apply Rltb_true in Ea; try apply Rltb_true in Eb; try apply Rltb_false in Ea; try apply Rltb_false in Eb.
  - exfalso. rewrite Rabs_minus_sym in Ea. destruct Sx as [|Sx]; [|lra]. destruct Sy as [|Sy]; [|lra]. lra.
  - assert (Hy : vy q - vy p = 0). { destruct Sy as [|Sy]; auto. rewrite Rabs_minus_sym in Ea. lra. }
    assert (Hx : vx q - vx p <> 0). { intros Z. rewrite Z, Rabs_R0 in Eb. lra. }
    replace (vy p - vy q) with 0 in Hl by lra.
    assert (Er : - (vx p * vy q - vx q * vy p) / (vx q - vx p) = vy r).
    { apply (Rmult_eq_reg_r (vx q - vx p)); auto. field_simplify; auto. lra. }
    rewrite Er. rewrite (proj2 (Rleb_true _ _)).
    2:{ unfold Rabs. destruct (Rcase_abs _); nra. }
    do 2 eexists. split; [reflexivity|].
    replace (1 - vy r * vy r) with (Rsqr (vx r)) by (unfold Rsqr; lra). rewrite sqrt_Rsqr_abs.
    unfold Rabs. destruct (Rcase_abs _); [right|left]; apply vec2_ext; cbn; lra.
  - assert (Hx : vx q - vx p = 0). { destruct Sx as [|Sx]; auto. lra. }
    assert (Hy : vy p - vy q <> 0). { intros Z. rewrite Z, Rabs_R0 in Ea. lra. }
    rewrite Hx in Hl.
    assert (Er : - (vx p * vy q - vx q * vy p) / (vy p - vy q) = vx r).
    { apply (Rmult_eq_reg_r (vy p - vy q)); auto. field_simplify; auto. lra. }
    rewrite Er. rewrite (proj2 (Rleb_true _ _)).
    2:{ unfold Rabs. destruct (Rcase_abs _); nra. }
    do 2 eexists. split; [reflexivity|].
    replace (1 - vx r * vx r) with (Rsqr (vy r)) by (unfold Rsqr; lra). rewrite sqrt_Rsqr_abs.
    unfold Rabs. destruct (Rcase_abs _); [right|left]; apply vec2_ext; cbn; lra.
  - assert (Hx : vx q - vx p <> 0). { intros Z. rewrite Z, Rabs_R0 in Eb. lra. }
    set (sg := - (vy p - vy q) / (vx q - vx p)). set (de := - (vx p * vy q - vx q * vy p) / (vx q - vx p)).
    assert (Er : vy r = sg * vx r + de).
    { unfold sg, de. apply (Rmult_eq_reg_r (vx q - vx p)); auto. field_simplify; auto. lra. }
    destruct (quad_only (1 + sg * sg) (2 * de * sg) (de * de - 1) (vx r)) as [D0 Dx]; [nra|rewrite Er in Hc; lra|].
    rewrite (proj2 (Rltb_false _ _)) by lra. do 2 eexists. split; [reflexivity|].
    destruct Dx as [Dx|Dx]; [left|right]; apply vec2_ext; cbn [vx vy]; rewrite ?Er, <- ?Dx; reflexivity.
Qed.

(** ** Transfer to the plane *)
Lemma gen_diff_sharp : forall a b th c e p q, is_ell a b th c e ->
  off_band em15 a b th p q -> sharp (ell_gen e p) (ell_gen e q).
Proof.
  intros a b th c e p q H [A B]. rewrite !(is_ell_gen a b th c) by auto. unfold sharp; cbn.
  assert (Ha : 0 < a) by apply H. assert (Hb : 0 < b) by apply H.
  replace (axis_u th c q / a - axis_u th c p / a) with (axis_u th p q / a) by (unfold axis_u; field; lra).
  replace (axis_v th c q / b - axis_v th c p / b) with (axis_v th p q / b) by (unfold axis_v; field; lra).
  auto.
Qed.

Lemma inter_boundary : forall a b th c e p q i j, is_ell a b th c e -> ell_intersections e p q = Some (i, j) ->
  level a b th c i = 1 /\ level a b th c j = 1.
Proof.
  intros a b th c e p q i j H E. unfold ell_intersections in E. rewrite (proj1 H) in E. cbn [negb] in E.
  destruct (circle_line _ _) as [[w z]|] eqn:Ec; [|discriminate]. injection E as <- <-.
  pose proof (is_ell_wf _ _ _ _ _ H) as W. apply circle_sound in Ec. rewrite <- !(is_ell_level a b th c e) by auto.
  rewrite !gen_out by auto. exact Ec.
Qed.

Lemma inter_on_line : forall a b th c e p q i j, is_ell a b th c e -> off_band em15 a b th p q ->
  ell_intersections e p q = Some (i, j) -> on_line p q i /\ on_line p q j.
Proof.
  intros a b th c e p q i j H Ho E. unfold ell_intersections in E. rewrite (proj1 H) in E. cbn [negb] in E.
  destruct (circle_line _ _) as [[w z]|] eqn:Ec; [|discriminate]. injection E as <- <-.
  pose proof (is_ell_wf _ _ _ _ _ H) as W. apply circle_on_line in Ec; [|eapply gen_diff_sharp; eauto].
  split; apply (gen_on_line e); auto; rewrite gen_out by auto; apply Ec.
Qed.

Lemma inter_complete : forall a b th c e p q r, is_ell a b th c e -> off_band em15 a b th p q -> p <> q ->
  on_line p q r -> level a b th c r = 1 -> exists i j, ell_intersections e p q = Some (i, j) /\ (r = i \/ r = j).
Proof.
  intros a b th c e p q r H Ho Hd Hl Hb. pose proof (is_ell_wf _ _ _ _ _ H) as W. rewrite <- (is_ell_level a b th c e) in Hb by auto.
  destruct (circle_complete (ell_gen e p) (ell_gen e q) (ell_gen e r)) as (w & z & E & D).
  - eapply gen_diff_sharp; eauto.
  - intros K. apply Hd. eapply gen_inj; eauto.
  - apply (proj1 (gen_on_line e p q r W)); auto.
  - exact Hb.
  - unfold ell_intersections. rewrite (proj1 H), E. cbn [negb]. do 2 eexists. split; [reflexivity|].
    destruct D as [D|D]; [left|right]; rewrite <- D, out_gen by auto; reflexivity.
Qed.

Lemma vnorm_dist : forall p q, vnorm (vsub p q) = dist2d p q.
Proof. intros p q. unfold vnorm, dist2d. try unfold vnorm2. unfold vsub; cbn. f_equal. ring. Qed.

Lemma closest_spec : forall e p q i, ell_closest e p q = Some i ->
  exists j k, ell_intersections e p q = Some (j, k) /\ (i = j \/ i = k) /\ dist2d q i <= dist2d q j /\ dist2d q i <= dist2d q k.
Proof.
  intros e p q i H. unfold ell_closest in H. destruct (ell_intersections e p q) as [[j k]|]; [|discriminate].
  exists j, k. split; [reflexivity|]. rewrite !vnorm_dist in H.
  destruct (Rltb (dist2d q j) (dist2d q k)) eqn:E; injection H as <-; [apply Rltb_true in E|apply Rltb_false in E]; split; auto; lra.
Qed.

Lemma closest_some : forall e p q j k, ell_intersections e p q = Some (j, k) -> exists i, ell_closest e p q = Some i.
Proof. intros e p q j k H. unfold ell_closest. rewrite H. destruct (Rltb _ _); eauto. Qed.

Lemma project_cases : forall a b th c e test proj, is_ell a b th c e ->
  (level a b th c test <= 1 /\ ell_project e test proj = test) \/
  (1 < level a b th c test /\
    ((exists i, ell_closest e proj test = Some i /\ ell_project e test proj = i) \/
     (ell_closest e proj test = None /\ ell_project e test proj = line_at c test (/ sqrt (level a b th c test))))).
Proof.
  intros a b th c e test proj H. unfold ell_project. rewrite (proj1 H). cbn [negb]. cbv zeta.
  assert (EL : vnorm (ell_gen e test) = sqrt (level a b th c test)).
  { rewrite <- (is_ell_level a b th c e) by auto. unfold vnorm. try unfold vnorm2. reflexivity. }
  destruct (Rleb (vnorm (ell_gen e test)) 1) eqn:E.
  - left. split; [|reflexivity]. apply Rleb_true in E. apply vnorm_le_1 in E. rewrite (is_ell_level a b th c) in E by auto. exact E.
  - right. assert (L : 1 < level a b th c test).
    { apply Rleb_false in E. destruct (Rlt_dec 1 (level a b th c test)) as [|N]; auto. exfalso.
      apply Rnot_lt_le in N. rewrite <- (is_ell_level a b th c e) in N by auto. apply vnorm_le_1 in N. lra. }
    split; [exact L|]. destruct (ell_closest e proj test) as [i|]; [left; eauto|right]. split; [reflexivity|].
    assert (Hs : sqrt (level a b th c test) <> 0) by (apply Rgt_not_eq, sqrt_lt_R0; lra).
    pose proof (is_ell_wf _ _ _ _ _ H) as W. apply (gen_inj e); auto. rewrite gen_out by auto. rewrite gen_line. rewrite EL.
    assert (Z : ell_gen e c = V2 0 0).
    { rewrite (is_ell_gen a b th c) by auto. unfold axis_u, axis_v. destruct H as (_&_&_&_&_&_&_&Ha&Hb). apply vec2_ext; cbn; field; lra. }
    rewrite Z. unfold line_at; cbn. apply vec2_ext; cbn; field; auto.
Qed.

Lemma level_line : forall a b th c p t, 0 < a -> 0 < b -> level a b th c (line_at c p t) = t * t * level a b th c p.
Proof. intros. unfold level, axis_u, axis_v, line_at; cbn. field. lra. Qed.

Lemma project_boundary : forall a b th c e test proj, is_ell a b th c e -> 1 < level a b th c test ->
  level a b th c (ell_project e test proj) = 1.
Proof.
  intros a b th c e test proj H L. destruct (project_cases a b th c e test proj H) as [[N _]|(_ & [(i & Ei & ->)|(_ & ->)])]; [lra| |].
  - apply closest_spec in Ei. destruct Ei as (j & k & E & D & _). destruct (inter_boundary _ _ _ _ _ _ _ _ _ H E). destruct D; subst; auto.
  - rewrite level_line by apply H. pose proof (sqrt_sqrt (level a b th c test)).
    assert (Hs : 0 < sqrt (level a b th c test)) by (apply sqrt_lt_R0; lra).
    rewrite <- H0 at 3 by lra. field. lra.
Qed.

(** Level along a line is a quadratic polynomial with positive leading coefficient. *)
Lemma level_quad : forall a b th c p q, 0 < a -> 0 < b -> p <> q -> exists A B, 0 < A /\
  forall t, level a b th c (line_at p q t) = A * t * t + B * t + level a b th c p.
Proof.
  intros a b th c p q Ha Hb Hd.
  set (u := axis_u th p q / a). set (v := axis_v th p q / b).
  exists (u * u + v * v), (2 * (axis_u th c p / a * u + axis_v th c p / b * v)). split.
  - destruct (Req_dec u 0) as [U|U]; destruct (Req_dec v 0) as [V|V]; try nra. exfalso. apply Hd.
    assert (Ku : axis_u th p q = 0). { replace (axis_u th p q) with (u * a) by (unfold u; field; lra). rewrite U; ring. }
    assert (Kv : axis_v th p q = 0). { replace (axis_v th p q) with (v * b) by (unfold v; field; lra). rewrite V; ring. }
    unfold axis_u, axis_v in *. pose proof (cs1 th).
    assert (vx q - vx p = 0). { transitivity ((vx q - vx p) * (cos th * cos th + sin th * sin th)); [rewrite H; ring|].
      transitivity (cos th * ((vx q - vx p) * cos th + (vy q - vy p) * sin th) - sin th * (- (vx q - vx p) * sin th + (vy q - vy p) * cos th)); [ring|]. rewrite Ku, Kv; ring. }
    assert (vy q - vy p = 0). { transitivity ((vy q - vy p) * (cos th * cos th + sin th * sin th)); [rewrite H; ring|].
      transitivity (sin th * ((vx q - vx p) * cos th + (vy q - vy p) * sin th) + cos th * (- (vx q - vx p) * sin th + (vy q - vy p) * cos th)); [ring|]. rewrite Ku, Kv; ring. }
    apply vec2_ext; lra.
  - intros t. unfold level, u, v, axis_u, axis_v, line_at; cbn. field. lra.
Qed.

Lemma line_dist : forall p q s, dist2d q (line_at p q s) = Rabs (1 - s) * dist2d q p.
Proof.
  intros p q s. unfold dist2d, line_at; cbn. rewrite <- sqrt_Rsqr_abs, <- sqrt_mult_alt by apply Rle_0_sqr. f_equal. unfold Rsqr. ring.
Qed.

Lemma line_0 : forall p q, line_at p q 0 = p. Proof. intros; unfold line_at; apply vec2_ext; cbn; ring. Qed.
Lemma line_1 : forall p q, line_at p q 1 = q. Proof. intros; unfold line_at; apply vec2_ext; cbn; ring. Qed.

Lemma dist2d_pos : forall p q, p <> q -> 0 < dist2d p q.
Proof.
  intros p q H. unfold dist2d. apply sqrt_lt_R0. 
  destruct (Req_dec (vx p) (vx q)) as [X|X]; destruct (Req_dec (vy p) (vy q)) as [Y|Y]; try nra.
  exfalso; apply H, vec2_ext; auto.
Qed.

(** ** atan2 *)
Lemma atan2_polar : forall x y r, 0 < r -> r * r = x * x + y * y ->
  cos (atan2 y x) = x / r /\ sin (atan2 y x) = y / r.
Proof.
  intros x y r Hr Er.
  assert (K : x <> 0 -> sqrt (1 + (y / x)²) = r / Rabs x).
  { intros Hx. replace (1 + (y / x)²) with (Rsqr (r / Rabs x)).
    - rewrite sqrt_Rsqr; [reflexivity|]. apply Rmult_le_pos; [lra|]. left. apply Rinv_0_lt_compat, Rabs_pos_lt; auto.
    - unfold Rsqr, Rdiv. rewrite Rmult_assoc, (Rmult_comm (/ Rabs x)), Rmult_assoc. rewrite <- Rinv_mult.
      rewrite <- Rabs_mult, (Rabs_pos_eq (x * x)) by nra. rewrite <- Rmult_assoc, Er. field; auto. }
  unfold atan2. destruct (Rlt_dec 0 x) as [Hx|Hx].
  - rewrite cos_atan, sin_atan, K, Rabs_pos_eq by lra. split; field; lra.
  - destruct (Rlt_dec x 0) as [Hx'|Hx'].
    + assert (P : forall z, cos (z + PI) = - cos z /\ sin (z + PI) = - sin z) by (intros; split; [apply neg_cos|apply neg_sin]).
      assert (Q : forall z, cos (z - PI) = - cos z /\ sin (z - PI) = - sin z).
      { intros z. replace z with ((z - PI) + PI) at 2 4 by ring. rewrite neg_cos, neg_sin. lra. }
      assert (C1 : - cos (atan (y / x)) = x / r). { rewrite cos_atan, K, Rabs_left by lra. field; lra. }
      assert (C2 : - sin (atan (y / x)) = y / r). { rewrite sin_atan, K, Rabs_left by lra. field; lra. }
      destruct (Rle_dec 0 y); [destruct (P (atan (y / x))) as [-> ->]|destruct (Q (atan (y / x))) as [-> ->]]; auto.
    + assert (x = 0) by lra. subst x. destruct (Rlt_dec 0 y).
      * assert (y = r) by nra. subst y. rewrite cos_PI2, sin_PI2. split; field; lra.
      * destruct (Rlt_dec y 0).
        -- assert (y = - r) by nra. subst y. rewrite cos_neg, sin_neg, cos_PI2, sin_PI2. split; field; lra.
        -- assert (y = 0) by lra. subst y. nra.
Qed.

Definition image (a b th : R) : mat2 := M2 (cos th * a) (- sin th * b) (sin th * a) (cos th * b).

Lemma atan2_image : forall a b th, 0 < a -> cos (atan2 (m10 (image a b th)) (m00 (image a b th))) = cos th
  /\ sin (atan2 (m10 (image a b th)) (m00 (image a b th))) = sin th.
Proof.
  intros a b th Ha. cbn. destruct (atan2_polar (cos th * a) (sin th * a) a Ha) as [-> ->].
  - pose proof (cs1 th). replace (cos th * a * (cos th * a) + sin th * a * (sin th * a)) with (a * a * (cos th * cos th + sin th * sin th)) by ring. rewrite H; ring.
  - split; field; lra.
Qed.

Lemma setM_image : forall a b th d e, 0 < a -> 0 < b ->
  ell_setM (image a b th) d e =
    if Rlt_dec (a * b) em10 then (e, false)
    else if Rlt_dec (Rabs (cos th)) (Rabs (sin th)) then (e, false)
    else (MkEll (image a b th) (minv (image a b th)) d a b (atan2 (sin th * a) (cos th * a)) true, true).
Proof.
  intros a b th d e Ha Hb. unfold ell_setM. cbv zeta. destruct (atan2_image a b th Ha) as [EC ES]. rewrite EC, ES.
  unfold image at 1. rewrite set5_det. pose proof em10_pos as He.
  destruct (Rlt_dec (a * b) em10) as [L|L].
  - rewrite (proj2 (Rltb_true _ _)) by auto. reflexivity.
  - rewrite (proj2 (Rltb_false _ _)) by lra. cbn [m00 m01 m10 m11 image].
    pose proof (cs1 th) as Hcs.
    destruct (Rlt_dec (Rabs (cos th)) (Rabs (sin th))) as [G|G].
    + rewrite rgtb_t by lra. assert (Hs : sin th <> 0). { intros Z. rewrite Z, Rabs_R0 in G. pose proof (Rabs_pos (cos th)). lra. }
      replace (sin th * a / sin th) with a by (field; auto). replace (- sin th * b / sin th) with (- b) by (field; auto).
      unfold image; rewrite set5_det. rewrite rgtb_t; [reflexivity|]. replace (a * b - a * - b) with (2 * (a * b)) by ring.
      rewrite Rabs_pos_eq; lra.
    + rewrite rgtb_f by lra. assert (Hc : cos th <> 0).
      { intros Z. rewrite Z, Rabs_R0 in G. rewrite Z in Hcs. assert (sin th <> 0) by nra. pose proof (Rabs_pos_lt _ H). lra. }
      replace (cos th * a / cos th) with a by (field; auto). replace (cos th * b / cos th) with b by (field; auto).
      unfold image; rewrite set5_det. rewrite rgtb_f; [reflexivity|]. rewrite Rminus_diag_eq, Rabs_R0 by reflexivity. lra.
Qed.

(** ** Tangents *)
Lemma tangent_spec : forall a b th c e phi, is_ell a b th c e -> em10 <= a -> em10 <= b ->
  let q := V2 (curve_x a b th c phi) (curve_y a b th c phi) in
  let dx := - a * sin phi * cos th - b * cos phi * sin th in
  let dy := - a * sin phi * sin th + b * cos phi * cos th in
  em10 <= sqrt (dx * dx + dy * dy) /\
  ell_tangent 0 e q = V2 (dx / sqrt (dx * dx + dy * dy)) (dy / sqrt (dx * dx + dy * dy)).
Proof.
  intros a b th c e phi H Ha Hb q dx dy. pose proof em10_pos as He.
  assert (EG : ell_gen e q = V2 (cos phi) (sin phi)).
  { rewrite (is_ell_gen a b th c) by auto. unfold axis_u, axis_v, q, curve_x, curve_y; cbn. pose proof (cs1 th) as Hc.
    apply vec2_ext; cbn.
    - transitivity (cos phi * (cos th * cos th + sin th * sin th)); [field; lra|rewrite Hc; ring].
    - transitivity (sin phi * (cos th * cos th + sin th * sin th)); [field; lra|rewrite Hc; ring]. }
  assert (N : em10 * em10 <= dx * dx + dy * dy).
  { replace (dx * dx + dy * dy) with (a * a * (sin phi * sin phi) + b * b * (cos phi * cos phi)).
    - pose proof (cs1 phi). assert (em10 * em10 <= a * a) by nra. assert (em10 * em10 <= b * b) by nra.
      assert (0 <= sin phi * sin phi) by nra. assert (0 <= cos phi * cos phi) by nra. nra.
    - transitivity ((a * a * (sin phi * sin phi) + b * b * (cos phi * cos phi)) * (cos th * cos th + sin th * sin th)); [rewrite cs1; ring|].
      unfold dx, dy; ring. }
  assert (S1 : em10 <= sqrt (dx * dx + dy * dy)).
  { rewrite <- (sqrt_square em10) by lra. apply sqrt_le_1_alt. exact N. }
  split; [exact S1|]. unfold ell_tangent. rewrite EG. cbv zeta.
  replace (mapply (e_C e) (mapply (M2 0 (-1) 1 0) (V2 (cos phi) (sin phi)))) with (V2 dx dy).
  - assert (EN : vnorm (V2 dx dy) = sqrt (dx * dx + dy * dy)) by (unfold vnorm; try unfold vnorm2; reflexivity).
    rewrite EN, rgtb_t; [reflexivity|]. apply Rlt_le_trans with em10; [|exact S1].
    unfold em10, em15. apply Rinv_1_lt_contravar; [|apply Rlt_pow; [lra|lia]].
    replace 1 with (1 ^ 10) by ring. apply pow_incr. lra.
  - destruct H as (_ & -> & _). unfold mapply, dx, dy; cbn. apply vec2_ext; cbn; ring.
Qed.

Lemma derivable_pt_lim_ext_eq : forall (f g : R -> R) x l, (forall z, f z = g z) -> derivable_pt_lim f x l -> derivable_pt_lim g x l.
Proof.
  intros f g x l E H eps He. destruct (H eps He) as [d Hd]. exists d. intros h Hh Hhd. rewrite <- !E. apply Hd; auto.
Qed.
