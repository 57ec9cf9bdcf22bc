(** Exact conditions for claims that do not hold for every accepted input: C21, C25, C37, C61, C62, C69. *)
From Coq Require Import String Reals Lra Lia ZArith List Bool Sorting.Sorted Sorting.Permutation.
From Flocq Require Import Core.
From Verif Require Import Prelude EvalTac UnicycleFoot FootPrint Rounding GenPhases GenSpec GenProofs GenProofs2 GenProofs3 Properties_Generator FeetTraj FeetSpec ZMP ZMPSpec Ellipse EllipseSpec EllipseProofs Properties_Ellipse Controllers ControlSpec ControlProofs Properties_Controllers Navigation NavigationSpec NavigationProofs
  DCM DCMSpec Properties_DCM.
Import ListNotations.
Open Scope R_scope.
Notation Forall := List.Forall.

(** The stored heading is within half a turn exactly for headings of at most one and a half turns. *)
Theorem C25_heading_iff : forall a t p n, exists s, n_state (nav_feedback t p a n) = Some s /\ (- PI <= u_angle s <= PI <-> Rabs a <= 3 * PI).
Proof.
  intros a t p n. eexists. split; [reflexivity|]. cbn. split; [|apply wrap_range]. pose proof PI_RGT_0. intros Hw. unfold wrap_once in Hw. rcasesh Hw; apply Rabs_le; lra.
Qed.
Print Assumptions C25_heading_iff.

(** The reported angular limit is obeyed for every command exactly when there is no turning gain or turning is forbidden. *)
Theorem C61_angular_iff : forall ops lin ang, set_limits ops = Some (lin, ang) -> let '(_, _, w) := base_limits (base_history ops) in
  ((forall raw, Rabs (c_ang (base_sat (base_history ops) raw)) <= w) <-> set_turn ops = 0 \/ ang = 0).
Proof.
  intros ops lin ang H. pose proof (history_agrees ops) as [A B C D]. rewrite H in A. destruct A as (A1 & A2 & A3 & A4). pose proof (base_history_ok ops) as Hb. unfold base_limits. rewrite A2, B.
  assert (T0 : 0 <= set_turn ops) by (rewrite <- B; apply Hb). split.
  - intros Q. specialize (Q (MkCmd 0 ang 0)). cbn [base_sat c_ang] in Q. assert (E : saturate2 ang (b_maxAng (base_history ops)) = ang) by (rewrite A2; unfold saturate2, saturate3; destruct (_ || _); [reflexivity|]; rcases; lra). unfold base_sat in Q. cbn [c_ang] in Q. rewrite E, Rabs_pos_eq in Q by auto.
    destruct (Req_dec ang 0) as [|N]; [right; auto|left]. apply (Rmult_le_compat_r (1 + set_turn ops)) in Q; [|lra]. unfold Rdiv in Q. rewrite Rmult_assoc, Rinv_l, Rmult_1_r in Q by lra. assert (P : ang * set_turn ops <= 0) by lra. assert (set_turn ops <= 0); [|lra]. apply Rmult_le_reg_l with ang; lra.
  - intros Q raw. destruct (C08_limits ops lin ang raw H) as (P & _). apply Rabs_le. destruct Q as [-> | ->]; [rewrite Rplus_0_r; unfold Rdiv; rewrite Rinv_1; lra|unfold Rdiv; rewrite Rmult_0_l; lra].
Qed.
Print Assumptions C61_angular_iff.

Lemma same_ball : forall q01 q11, (forall x y, (x + q01 * y) ^ 2 + (q11 * y) ^ 2 <= 1 <-> x ^ 2 + y ^ 2 <= 1) -> q01 = 0 /\ q11 ^ 2 = 1.
Proof.
  intros q01 q11 H. assert (K : forall x y, 0 < x ^ 2 + y ^ 2 -> (x + q01 * y) ^ 2 + (q11 * y) ^ 2 = x ^ 2 + y ^ 2).
  { intros x y P. set (m := (x + q01 * y) ^ 2 + (q11 * y) ^ 2). set (n := x ^ 2 + y ^ 2) in *. assert (M0 : 0 <= m) by (unfold m; pose proof (pow2_ge_0 (x + q01 * y)); pose proof (pow2_ge_0 (q11 * y)); lra).
    set (t := sqrt (2 / (m + n))). assert (Q0 : 0 < 2 / (m + n)) by (apply Rdiv_lt_0_compat; lra). assert (T2 : t ^ 2 = 2 / (m + n)) by (unfold t; apply pow2_sqrt; lra). specialize (H (t * x) (t * y)).
    replace ((t * x + q01 * (t * y)) ^ 2 + (q11 * (t * y)) ^ 2) with (t ^ 2 * m) in H by (unfold m; ring). replace ((t * x) ^ 2 + (t * y) ^ 2) with (t ^ 2 * n) in H by (unfold n; ring). rewrite T2 in H.
    assert (S1 : forall z, 2 / (m + n) * z <= 1 <-> 2 * z <= m + n). { intros z. replace (2 / (m + n) * z) with (2 * z / (m + n)) by (field; lra). split; intros Hz. - apply (Rmult_le_compat_r (m + n)) in Hz; [|lra]. unfold Rdiv in Hz. rewrite Rmult_assoc, Rinv_l in Hz by lra. lra. - apply Rmult_le_reg_r with (m + n); [lra|]. unfold Rdiv. rewrite Rmult_assoc, Rinv_l by lra. lra. }
    rewrite !S1 in H. destruct (Rle_lt_dec m n); lra. }
  pose proof (K 0 1 ltac:(lra)) as K1. pose proof (K 1 1 ltac:(lra)) as K2. assert (q01 = 0) by nra. subst. split; nra.
Qed.
Lemma inside_gen : forall e p, e_set e = true -> (ell_inside e p = true <-> vx (ell_gen e p) ^ 2 + vy (ell_gen e p) ^ 2 <= 1).
Proof.
  intros e p S1. unfold ell_inside. rewrite S1. cbn [negb]. set (g := ell_gen e p). rewrite Rleb_true. pose proof (vnorm_sq g) as N1. pose proof (vnorm_nonneg g) as N2. split; intros H; nra.
Qed.
Lemma setM_accepted : forall C d e e', ell_setM C d e = (e', true) ->
  e_C e' = C /\ e_Ci e' = minv C /\ e_d e' = d /\ e_set e' = true /\ em10 <= mdet C /\ (sin (e_th e') <> 0 /\ m01 C = e_b e' * sin (e_th e') \/ cos (e_th e') <> 0 /\ m11 C = e_b e' * cos (e_th e')).
Proof.
  intros C d e e'. unfold ell_setM. cbv zeta. destruct (Rltb (mdet C) em10) eqn:Ed; [discriminate|]. apply Rltb_false in Ed. set (th := atan2 (m10 C) (m00 C)). pose proof (sin2_cos2 th) as SC. unfold Rsqr in SC.
  destruct (Rgtb (Rabs (sin th)) (Rabs (cos th))) eqn:G; rcases; try discriminate; intros H; injection H as <-; cbn; repeat (split; [reflexivity|]); (split; [exact Ed|]).
  - left. apply Rltb_true in G. assert (sin th <> 0) by (intros Z; rewrite Z, Rabs_R0 in G; pose proof (Rabs_pos (cos th)); lra). split; auto. field. auto.
  - right. apply Rltb_false in G. assert (cos th <> 0). { intros Z. rewrite Z, Rabs_R0 in G. pose proof (Rabs_pos (sin th)). assert (sin th = 0) by (destruct (Req_dec (sin th) 0) as [|N]; auto; apply Rabs_pos_lt in N; lra). rewrite Z, H0 in SC. lra. } split; auto. field. auto.
Qed.
(** The reported axes and angle describe the accepted matrix exactly when its columns are orthogonal. *)
Theorem C62_axes_iff : forall C d e e' e1 e'', ell_setM C d e = (e', true) -> ell_set5 (e_a e') (e_b e') (e_th e') (vx d) (vy d) e1 = (e'', true) ->
  ((forall p, ell_inside e' p = ell_inside e'' p) <-> m00 C * m01 C + m10 C * m11 C = 0).
Proof.
  intros C d e e' e1 e'' H H5. destruct (C62_reported_axes_partial C d e e' H) as (A1 & A2 & A3). destruct (setM_accepted C d e e' H) as (B1 & B2 & B3 & B4 & B5 & B6). pose proof em10_pos as P10.
  set (a := e_a e') in *. set (b := e_b e') in *. set (th := e_th e') in *. unfold ell_set5 in H5. destruct (Rltb a em10) eqn:La; [discriminate|]. destruct (Rltb b em10) eqn:Lb; [discriminate|]. apply Rltb_false in La. apply Rltb_false in Lb. cbn [orb] in H5. injection H5 as <-.
  set (D := M2 (cos th * a) (- sin th * b) (sin th * a) (cos th * b)). pose proof (sin2_cos2 th) as SC. unfold Rsqr in SC. assert (DD : mdet D = a * b) by (unfold mdet, D; cbn [m00 m01 m10 m11]; replace (cos th * a * (cos th * b) - - sin th * b * (sin th * a)) with (a * b * (sin th * sin th + cos th * cos th)) by ring; rewrite SC; ring).
  assert (ab : 0 < a * b) by (apply Rmult_lt_0_compat; lra). split.
  - intros Q. set (q1 := (m11 C * (- sin th * b) - m01 C * (cos th * b)) / mdet C). set (q2 := a * b / mdet C).
    assert (SB : forall x y, (x + q1 * y) ^ 2 + (q2 * y) ^ 2 <= 1 <-> x ^ 2 + y ^ 2 <= 1).
    { intros x y. set (p := V2 (vx d + (cos th * a * x + - sin th * b * y)) (vy d + (sin th * a * x + cos th * b * y))). specialize (Q p).
      assert (G1 : ell_gen e' p = V2 (x + q1 * y) (q2 * y)). { unfold ell_gen. rewrite B2, B3. unfold p, mapply, minv, vsub, q1, q2. cbn [vx vy m00 m01 m10 m11]. apply vec2_ext; cbn [vx vy].
        - unfold mdet in *; rewrite <- ?A1, <- ?A2 in *. field. lra.
        - rewrite <- A1, <- A2. assert (d0 : mdet C <> 0) by lra. set (m := mdet C) in *. clearbody m. replace (a * b / m * y) with (a * b * (sin th * sin th + cos th * cos th) * y / m) by (rewrite SC; field; exact d0). field. exact d0. }
      set (f := MkEll D (minv D) (V2 (vx d) (vy d)) a b th true) in *. assert (G2 : ell_gen f p = V2 x y). { unfold ell_gen, f. cbn [e_Ci e_d]. unfold mapply, minv, vsub. rewrite DD. unfold p, D. cbn [vx vy m00 m01 m10 m11]. apply vec2_ext; cbn [vx vy].
        - transitivity (x * (sin th * sin th + cos th * cos th)); [field; lra|rewrite SC; ring].
        - transitivity (y * (sin th * sin th + cos th * cos th)); [field; lra|rewrite SC; ring]. }
      pose proof (inside_gen e' p B4) as I1. pose proof (inside_gen f p eq_refl) as I2. rewrite G1 in I1. rewrite G2 in I2. cbn [vx vy] in I1, I2. rewrite <- I1, <- I2, Q. tauto. }
    destruct (same_ball q1 q2 SB) as (Z & _). unfold q1 in Z. assert (Z' : m11 C * (- sin th * b) - m01 C * (cos th * b) = 0). { apply (Rmult_eq_compat_r (mdet C)) in Z. unfold Rdiv in Z. rewrite Rmult_assoc, Rinv_l in Z by lra. lra. }
    assert (Z'' : b * (cos th * m01 C + sin th * m11 C) = 0) by lra. apply Rmult_integral in Z''. destruct Z'' as [Z''|Z'']; [lra|]. rewrite <- A1, <- A2. replace (cos th * a * m01 C + sin th * a * m11 C) with (a * (cos th * m01 C + sin th * m11 C)) by ring. rewrite Z''. ring.
  - intros O p. assert (Z : cos th * m01 C + sin th * m11 C = 0). { rewrite <- A1, <- A2 in O. assert (Z : a * (cos th * m01 C + sin th * m11 C) = 0) by lra. apply Rmult_integral in Z. destruct Z; [lra|auto]. }
    set (k := m11 C * cos th - m01 C * sin th). assert (K1 : m01 C = - sin th * k). { unfold k. replace (- sin th * (m11 C * cos th - m01 C * sin th)) with (m01 C * (sin th * sin th + cos th * cos th) - cos th * (cos th * m01 C + sin th * m11 C)) by ring. rewrite SC, Z. ring. }
    assert (K2 : m11 C = cos th * k). { unfold k. replace (cos th * (m11 C * cos th - m01 C * sin th)) with (m11 C * (sin th * sin th + cos th * cos th) - sin th * (cos th * m01 C + sin th * m11 C)) by ring. rewrite SC, Z. ring. }
    assert (DC : mdet C = a * k). { unfold mdet. rewrite <- A1, <- A2, K1, K2. replace (cos th * a * (cos th * k) - - sin th * k * (sin th * a)) with (a * k * (sin th * sin th + cos th * cos th)) by ring. rewrite SC. ring. }
    assert (BK : b = k). { destruct B6 as [(S0 & E)|(S0 & E)].
      - assert (b = - k) by (rewrite K1 in E; apply (Rmult_eq_reg_r (sin th)); [lra|auto]). exfalso. assert (a * k = - (a * b)) by (replace k with (- b) by lra; ring). lra.
      - rewrite K2 in E. apply (Rmult_eq_reg_r (cos th)); [lra|auto]. }
    assert (E : C = D). { unfold D. rewrite BK, <- K1, <- K2, A1, A2. destruct C; reflexivity. }
    unfold ell_inside. cbn [e_set]. rewrite B4. cbn [negb]. unfold ell_gen. cbn [e_Ci e_d]. rewrite B2, B3, <- E. destruct d; reflexivity.
Qed.
Print Assumptions C62_axes_iff.

(** Where the DCM starts when no initial state was given: at rest between the feet, with the offsets added in world axes.  That is between the
    ZMPs of the feet exactly when the rotations of the offsets cancel. *)
Theorem C69_start : forall ops left right init dT srt out c o c' l0 r0 y, run_ok ops left right init dT srt out c -> dcm_of c ops init dT left right out = Ok (o, c') ->
  dc_init c = None -> hd_error (fp_steps left) = Some l0 -> hd_error (fp_steps right) = Some r0 -> hd_error (do_samples o) = Some y ->
  exists p, midway (vadd (st_pos l0) (dc_offL c)) (vadd (st_pos r0) (dc_offR c)) p /\ y = MkDS (Some p) (Some vzero) (Some p)
  /\ (midway (world_of l0 (dc_offL c)) (world_of r0 (dc_offR c)) p
      <-> vadd (world_of l0 (dc_offL c)) (world_of r0 (dc_offR c)) = vadd (vadd (st_pos l0) (dc_offL c)) (vadd (st_pos r0) (dc_offR c))).
Proof.
  intros ops left right init dT srt out c o c' l0 r0 y R Ho Hi Hl Hr Hy.
  destruct (C55_continuous_partial _ _ _ _ _ _ _ _ R) as (o1 & c1 & X & V & Ho1 & _ & _ & _ & (p & v & Hst & X0 & V0) & _ & _ & _ & Sm). assert (o1 = o) by congruence. subst o1.
  destruct Hst as [C|(_ & Ev & l & r & Hl' & Hr' & Mp)]; [congruence|]. assert (l = l0) by congruence. assert (r = r0) by congruence. subst l r.
  exists p. split; [exact Mp|]. split.
  - specialize (Sm 0%nat y ltac:(destruct (do_samples o); [discriminate|exact Hy])). cbv zeta in Sm. cbn [INR] in Sm. rewrite Rmult_0_l, X0, V0, Ev in Sm. rewrite Sm. f_equal. f_equal. apply vec2_ext; cbn; ring.
  - destruct Mp as [M1 M2]. set (wl := world_of l0 (dc_offL c)). set (wr := world_of r0 (dc_offR c)). unfold midway. split.
    + intros [N1 N2]. apply vec2_ext; cbn [vadd vx vy] in *; lra.
    + intros E. pose proof (f_equal vx E) as EX. pose proof (f_equal vy E) as EY. cbn [vadd vx vy] in *. lra.
Qed.
Print Assumptions C69_start.

(** On the boundary the tangent is the right one exactly when the unwritten entry is 0 or the point is at the end of the first axis. *)
Theorem C21_tangent_iff : forall a b th cx cy e0 e phi g, ell_set5 a b th cx cy e0 = (e, true) ->
  let p := V2 (curve_x a b th (V2 cx cy) phi) (curve_y a b th (V2 cx cy) phi) in (ell_tangent g e p = ell_tangent 0 e p <-> g = 0 \/ sin phi = 0).
Proof.
  intros a b th cx cy e0 e phi g H p. pose proof (C21_tangent_partial a b th cx cy e0 e phi H) as (N & _). cbv zeta in N. fold p in N. pose proof em10_pos as P10.
  unfold ell_set5 in H. destruct (Rltb a em10) eqn:La; [discriminate|]. destruct (Rltb b em10) eqn:Lb; [discriminate|]. apply Rltb_false in La. apply Rltb_false in Lb. cbn [orb] in H. injection H as He.
  pose proof (sin2_cos2 th) as SC. unfold Rsqr in SC. assert (ab : 0 < a * b) by (apply Rmult_lt_0_compat; lra).
  assert (DD : cos th * a * (cos th * b) - - sin th * b * (sin th * a) = a * b) by (replace (cos th * a * (cos th * b) - - sin th * b * (sin th * a)) with (a * b * (sin th * sin th + cos th * cos th)) by ring; rewrite SC; ring).
  assert (G : ell_gen e p = V2 (cos phi) (sin phi)). { rewrite <- He. unfold ell_gen. cbn [e_Ci e_d]. unfold mapply, minv, mdet, vsub. cbn [vx vy m00 m01 m10 m11]. rewrite DD. unfold p, curve_x, curve_y. cbn [vx vy]. apply vec2_ext; cbn [vx vy].
    - transitivity (cos phi * (sin th * sin th + cos th * cos th)); [field; lra|rewrite SC; ring].
    - transitivity (sin phi * (sin th * sin th + cos th * cos th)); [field; lra|rewrite SC; ring]. }
  unfold ell_tangent in *. rewrite G in *. set (v0 := mapply (e_C e) (mapply (M2 0 (-1) 1 0) (V2 (cos phi) (sin phi)))) in *. set (v := mapply (e_C e) (mapply (M2 0 (-1) 1 g) (V2 (cos phi) (sin phi)))).
  assert (V : forall h, mapply (e_C e) (mapply (M2 0 (-1) 1 h) (V2 (cos phi) (sin phi))) = V2 (cos th * a * (- sin phi) - sin th * b * (cos phi + h * sin phi)) (sin th * a * (- sin phi) + cos th * b * (cos phi + h * sin phi))) by (intros h; rewrite <- He; cbn [e_C]; unfold mapply; cbn [vx vy m00 m01 m10 m11]; apply vec2_ext; cbn [vx vy]; ring).
  split.
  - intros E. assert (P15 : 0 < em15) by (unfold em15; apply Rinv_0_lt_compat; lra). destruct (Rgtb (vnorm v0) em15) eqn:G0; [|cbn in N; lra]. apply Rltb_true in G0. destruct (Rgtb (vnorm v) em15) eqn:Gv; [|rewrite <- E in N; cbn in N; lra]. apply Rltb_true in Gv.
    set (n0 := vnorm v0) in *. set (n := vnorm v) in *. assert (J : forall p1 p2 q1 q2, V2 p1 p2 = V2 q1 q2 -> p1 = q1 /\ p2 = q2) by (intros; split; congruence). apply J in E. destruct E as (E1 & E2). clear J. set (k := n / n0). assert (K0 : 0 < k) by (apply Rdiv_lt_0_compat; lra).
    assert (F1 : vx v = k * vx v0). { unfold k. replace (n / n0 * vx v0) with (n * (vx v0 / n0)) by (field; lra). rewrite <- E1. field. lra. }
    assert (F2 : vy v = k * vy v0). { unfold k. replace (n / n0 * vy v0) with (n * (vy v0 / n0)) by (field; lra). rewrite <- E2. field. lra. }
    unfold v, v0 in F1, F2. rewrite !V in F1, F2. cbn [vx vy] in F1, F2.
    assert (X : a * (sin phi - k * sin phi) = 0). { transitivity (- (cos th * (cos th * a * - sin phi - sin th * b * (cos phi + g * sin phi) - k * (cos th * a * - sin phi - sin th * b * (cos phi + 0 * sin phi))) + sin th * (sin th * a * - sin phi + cos th * b * (cos phi + g * sin phi) - k * (sin th * a * - sin phi + cos th * b * (cos phi + 0 * sin phi))))).
      - transitivity (a * (sin phi - k * sin phi) * (sin th * sin th + cos th * cos th)); [rewrite SC; ring|ring].
      - rewrite F1, F2. ring. }
    assert (Y : b * (cos phi + g * sin phi - k * cos phi) = 0). { transitivity (cos th * (sin th * a * - sin phi + cos th * b * (cos phi + g * sin phi) - k * (sin th * a * - sin phi + cos th * b * (cos phi + 0 * sin phi))) - sin th * (cos th * a * - sin phi - sin th * b * (cos phi + g * sin phi) - k * (cos th * a * - sin phi - sin th * b * (cos phi + 0 * sin phi)))).
      - transitivity (b * (cos phi + g * sin phi - k * cos phi) * (sin th * sin th + cos th * cos th)); [rewrite SC; ring|ring].
      - rewrite F1, F2. ring. }
    apply Rmult_integral in X. destruct X as [X|X]; [lra|]. apply Rmult_integral in Y. destruct Y as [Y|Y]; [lra|]. destruct (Req_dec (sin phi) 0) as [|S0]; [right; auto|left].
    assert (K1 : k = 1). { apply (Rmult_eq_reg_r (sin phi)); [lra|auto]. } rewrite K1 in Y. assert (g * sin phi = 0) by lra. apply Rmult_integral in H. tauto.
  - intros E. assert (v = v0) as ->; [|reflexivity]. unfold v, v0. rewrite !V. destruct E as [-> | ->]; [reflexivity|]. rewrite !Rmult_0_r. reflexivity.
Qed.
Print Assumptions C21_tangent_iff.

Lemma ceil_ub : forall x, size_ceil x = UB <-> x <= -1.
Proof.
  intros x. unfold size_ceil, to_size. destruct (Z.ltb_spec (Zceil x) 0) as [H|H]; split; intros K; try discriminate; auto.
  - pose proof (Zceil_ub x). apply IZR_lt in H. assert (Zceil x <= -1)%Z by (apply lt_IZR in H; lia). apply IZR_le in H1. lra.
  - exfalso. assert (Zceil x <= -1)%Z by (apply Zceil_glb; exact K). lia.
Qed.
(** With a terminal switch of at least half a sampling period, the phase computation converts or subtracts out of range exactly when the
    arguments are accepted, at least three steps are stored, none of the planned ones coincide (orderSteps does not refuse), and the walk begins
    at least one sampling period after the terminal switch of its last step. *)
Theorem C37_wrap_iff : forall ops left right init dT srt, let es := g_endSwitch (settings_after ops) in
  sort_result (fp_steps left) (fp_steps right) srt -> dT <= 2 * es ->
  (generate_phases (settings_after ops) left right init dT srt = UB
   <-> fp_name left <> fp_name right /\ 0 < dT
       /\ (exists l0 r0, hd_error (fp_steps left) = Some l0 /\ hd_error (fp_steps right) = Some r0 /\ st_time l0 <= init /\ st_time r0 <= init)
       /\ (3 <= length (fp_steps left) + length (fp_steps right))%nat /\ order_steps srt <> Fail
       /\ forall s, In s (fp_steps left) \/ In s (fp_steps right) -> st_time s + es + dT <= init).
Proof.
  intros ops left right init dT srt es SR He. set (g := settings_after ops) in *. assert (G : good_settings g) by apply good_history.
  assert (IN : forall s, In s (fp_steps left) \/ In s (fp_steps right) <-> exists t, In t srt /\ t_step t = s).
  { intros s. split.
    - intros [H|H]; apply In_nth_error in H; destruct H as (i & H); [exists (MkT true i s)|exists (MkT false i s)]; (split; [|reflexivity]); [apply (sort_in _ _ _ true _ _ SR H)|apply (sort_in _ _ _ false _ _ SR H)].
    - intros (t & Ht & <-). apply (Permutation_in _ (proj1 SR)) in Ht. destruct t as [b i s]. apply (proj2 (all_steps_enumerates (fp_steps left) (fp_steps right))) in Ht. cbn [t_step]. destruct b; cbn [foot_list] in Ht; apply nth_error_In in Ht; auto. }
  assert (LN : length srt = (length (fp_steps left) + length (fp_steps right))%nat) by (rewrite (Permutation_length (proj1 SR)), all_steps_length; reflexivity).
  unfold generate_phases, fp_number.
  destruct (fp_steps left) as [|l0 l] eqn:El; [split; [discriminate|intros (_ & _ & (x & y & C & _) & _); discriminate]|]. destruct (fp_steps right) as [|r0 r] eqn:Er; [split; [discriminate|intros (_ & _ & (x & y & _ & C & _) & _); discriminate]|]. cbn [length Nat.ltb Nat.leb].
  destruct (String.eqb_spec (fp_name left) (fp_name right)) as [E|E]; [split; [discriminate|intros (C & _); contradiction]|]. destruct (Rleb dT 0) eqn:Ed; [apply Rleb_true in Ed; split; [discriminate|intros (_ & C & _); lra]|]. apply Rleb_false in Ed.
  pose proof (Rmax_l (st_time l0) (st_time r0)) as X1. pose proof (Rmax_r (st_time l0) (st_time r0)) as X2.
  destruct (Rltb init _) eqn:Ei; [apply Rltb_true in Ei; split; [discriminate|intros (_ & _ & (x & y & C1 & C2 & C3 & C4) & _); injection C1 as <-; injection C2 as <-; exfalso; unfold Rmax in Ei; destruct (Rle_dec _ _) in Ei; lra]|]. apply Rltb_false in Ei.
  assert (Ls : (2 <= length srt)%nat) by (rewrite LN; cbn [length]; lia). pose proof (order_defined srt Ls) as HO.
  destruct (order_steps srt) as [ord| |] eqn:Eo; cbn [rbind]; [|split; [discriminate|intros (_ & _ & _ & _ & C & _); contradiction]|contradiction].
  pose proof (order_perm _ _ Eo) as OP. pose proof (order_sorted _ _ (proj2 SR) Eo) as OS. assert (LO : length ord = length srt) by (symmetry; apply Permutation_length; exact OP).
  match goal with |- context [create_phases ?a1 ?a2 ?a3 ?a4 ?a5 ?a6 ?a7 ?a8] => set (cr := create_phases a1 a2 a3 a4 a5 a6 a7 a8) end.
  assert (BU : rbind cr (fun ph => Ok (MkGO ord ph (map contact_of (ph_left ph)) (map contact_of (ph_right ph)) (map fixed_of (ph_left ph)))) = UB <-> cr = UB) by (destruct cr; cbn [rbind]; split; intros; congruence). rewrite BU. clear BU. unfold cr. clear cr.
  destruct ord as [|a [|b [|c tl]]]; cbn [length] in LO; try lia.
  { cbn [create_phases]. rewrite size_round_ok by (apply div_nonneg; auto; apply Rlt_le, (good_end g G)). cbn [rbind]. split; [discriminate|]. intros (_ & _ & _ & C & _). cbn [length] in C, LN. lia. }
  cbn [create_phases]. set (d := hd _ _). set (o := a :: b :: c :: tl) in *. set (lt := st_time (t_step (last o d))).
  assert (LI : In (last o d) srt). { apply (Permutation_in _ (Permutation_sym OP)). unfold o. clear. assert (Q : forall (q : list tstep) x, In (last (x :: q) d) (x :: q)). { induction q as [|y q IH]; intros x; [left; reflexivity|]. right. apply IH. } apply Q. }
  assert (LM : forall t, In t srt -> st_time (t_step t) <= lt). { intros t Ht. apply (Permutation_in _ OP) in Ht. exact (sorted_last _ d t OS Ht). }
  assert (TU : (lt - init + g_endSwitch g) / dT <= -1 <-> lt + es + dT <= init). { fold es. split; intros K.
    - apply (Rmult_le_compat_r dT) in K; [|lra]. unfold Rdiv in K. rewrite Rmult_assoc, Rinv_l in K by lra. unfold es in *. lra.
    - apply Rmult_le_reg_r with dT; [lra|]. unfold Rdiv. rewrite Rmult_assoc, Rinv_l by lra. unfold es in *. lra. }
  split.
  - intros U. destruct (size_ceil ((lt - init + g_endSwitch g) / dT)) as [n| |] eqn:SC.
    + exfalso. revert U. cbn [rbind]. match goal with |- context [cp_loop ?a1 ?a2 ?a3 ?a4 ?a5 ?a6 ?a7 ?a8 ?a9] => pose proof (cp_loop_defined a1 a2 a4 a5 a6 a8 a7 a9 G Ed) as H; destruct (cp_loop a1 a2 a3 a4 a5 a6 a7 a8 a9) as [s| |] end; cbn [rbind]; try discriminate; try contradiction.
      rewrite size_round_ok by (apply div_nonneg; auto; apply Rlt_le, (good_end g G)). cbn [rbind]. pose proof (end_samples g dT G Ed He). rewrite sub_size_le by lia. discriminate.
    + discriminate U.
    + apply ceil_ub, TU in SC. split; [exact E|]. split; [exact Ed|]. split; [exists l0, r0; repeat split; lra|]. split; [cbn [length] in LN; cbn [length]; lia|]. split; [discriminate|]. intros s Hs. apply IN in Hs. destruct Hs as (t & Ht & <-). specialize (LM t Ht). lra.
  - intros (_ & _ & _ & _ & _ & C). assert (K : lt + es + dT <= init) by (apply C, IN; exists (last o d); auto). apply TU, ceil_ub in K. rewrite K. reflexivity.
Qed.
Print Assumptions C37_wrap_iff.
