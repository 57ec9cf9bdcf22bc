(** C111: the reference of the person following controller in the free space, in doubles. *)
From Coq Require Import String Reals ZArith List Bool Lia Lra.
From Flocq Require Import Core IEEE754.BinarySingleNaN.
From Verif Require Import Prelude UnicycleFoot Ellipse PersonFollowing EvalTac Doubles DoublesSpec DoublesProofs CtrlDoubles NavDoublesSpec TrackDoubles TrackDoublesSpec StepDoubles StepDoublesSpec
  PersonDoubles PersonDoublesSpec PersonDoublesProofs PersonDoublesProofs2 EllDoubles EllDoublesSpec ProjDoubles ProjDoublesSpec ProjDoublesProofs CutDoubles Properties_ProjDoubles.
Import ListNotations.
Open Scope R_scope.

(** The instance with exact reals is getDesiredPointInFreeSpaceEllipse of the exact model (C15), for any state of the controller
    and any contents of the unwritten matrix entry. *)
Lemma tangent_exact : forall garbage e z p, exact_space e = Some z -> v_tangent reals exact_maths garbage z (exact_pair p) = exact_pair (ell_tangent garbage e p).
Proof.
  intros garbage e z p H. unfold v_tangent, ell_tangent. rewrite (gen_exact e z) by auto. rewrite tiny_exact. set (g := ell_gen e p). unfold exact_space, exact_ell in H. destruct (e_set e); [|discriminate]. injection H as <-. cbn [v_C].
  assert (Z : c0 reals = 0) by (cbn; field). assert (O : c1 reals = 1) by (cbn; field). assert (Q : a_q reals (-1) 1 = -1) by (cbn; field). rewrite Z, O, Q.
  set (v := mapply (e_C e) (mapply (M2 0 (-1) 1 garbage) g)).
  match goal with |- context [v_norm reals exact_maths ?w] => change w with (exact_pair v) end. rewrite norm_exact. cbn [a_lt reals]. unfold Rgtb. destruct (Rltb em15 (vnorm v)); [|reflexivity]. unfold v_unit. rewrite norm_exact. reflexivity.
Qed.
Theorem C111_exact_reference : forall garbage k t u,
  p_free reals tanh (pf_field k) (v_cut reals exact_maths garbage (pf_field k) (exact_space (k_outer k)) (exact_space (k_inner k))) (map qp_of (k_traj k)) t u
  = option_map qr_of (pf_desired_free garbage k t (V2 (d_x u) (d_y u)) (d_th u)).
Proof.
  intros garbage k t u. rewrite <- exact_free. unfold p_free. destruct (q_desired reals _ t) as [((y0 & y1) & v)|]; [|reflexivity].
  assert (P : forall e, v_project reals exact_maths (exact_space e) (y0, y1) (d_x u, d_y u) = of_vec (if e_set e then ell_project e (V2 y0 y1) (V2 (d_x u) (d_y u)) else V2 y0 y1)).
  { intros e. change (y0, y1) with (exact_pair (V2 y0 y1)). change (d_x u, d_y u) with (exact_pair (V2 (d_x u) (d_y u))). rewrite project_exact. unfold ell_project. destruct (e_set e); reflexivity. }
  assert (Sk : cut_skip (v_cut reals exact_maths garbage (pf_field k) (exact_space (k_outer k)) (exact_space (k_inner k))) (y0, y1) u = cut_skip (exact_cut garbage k) (y0, y1) u).
  { cbn [cut_skip v_cut exact_cut]. unfold ell_inside. destruct (exact_space (k_inner k)) as [z|] eqn:E.
    - change (y0, y1) with (exact_pair (V2 y0 y1)). rewrite (gen_exact _ _ _ E), norm_exact. assert (O : c1 reals = 1) by (cbn; field). rewrite O. unfold exact_space, exact_ell in E. destruct (e_set (k_inner k)); [reflexivity|discriminate].
    - unfold exact_space, exact_ell in E. destruct (e_set (k_inner k)); [discriminate|reflexivity]. }
  assert (Ou : cut_outer (v_cut reals exact_maths garbage (pf_field k) (exact_space (k_outer k)) (exact_space (k_inner k))) (y0, y1) u = cut_outer (exact_cut garbage k) (y0, y1) u) by (cbn [cut_outer v_cut exact_cut]; rewrite P; reflexivity).
  assert (Inn : cut_inner (v_cut reals exact_maths garbage (pf_field k) (exact_space (k_outer k)) (exact_space (k_inner k))) (y0, y1) u = cut_inner (exact_cut garbage k) (y0, y1) u).
  { cbn [cut_inner v_cut exact_cut]. rewrite !P. unfold exact_space at 1, exact_ell. destruct (e_set (k_inner k)); reflexivity. }
  assert (Bf : cut_bf (v_cut reals exact_maths garbage (pf_field k) (exact_space (k_outer k)) (exact_space (k_inner k))) (y0, y1) u = cut_bf (exact_cut garbage k) (y0, y1) u).
  { cbn [cut_bf v_cut exact_cut]. unfold v_blend, pf_blend. assert (Z : c0 reals = 0) by (cbn; field). rewrite Z. unfold exact_space at 1, exact_ell. destruct (e_set (k_inner k)); [|reflexivity]. cbv zeta.
    assert (PP : p_person reals exact_maths (pf_field k) u = exact_pair (pf_person k (V2 (d_x u) (d_y u)) (d_th u))).
    { unfold p_person, pf_person, exact_pair. cbn [x_cos x_sin x_opp exact_maths a_add a_mul reals pf_field]. unfold vadd, rot. cbn [vx vy]. f_equal; ring. }
    rewrite PP. set (person := pf_person _ _ _). change (d_x u, d_y u) with (exact_pair (V2 (d_x u) (d_y u))). destruct (exact_space (k_outer k)) as [z|] eqn:E.
    - rewrite <- E, closest_exact. destruct (ell_closest (k_outer k) _ person) as [i|]; [|reflexivity]. cbn [option_map]. rewrite (tangent_exact garbage _ _ _ E). change (y0, y1) with (exact_pair (V2 y0 y1)).
      change (g_sub reals (exact_pair (V2 y0 y1)) (exact_pair person)) with (exact_pair (vsub (V2 y0 y1) person)). rewrite norm_exact. assert (Q : a_q reals 1 10000 = em4) by (unfold em4; cbn; field). rewrite Q. unfold Rgtb. cbn [a_lt reals].
      destruct (Rltb em4 _); reflexivity.
    - unfold ell_closest, ell_intersections. unfold exact_space, exact_ell in E. destruct (e_set (k_outer k)); [discriminate|reflexivity]. }
  rewrite Sk, Ou, Inn, Bf. reflexivity.
Qed.
Print Assumptions C111_exact_reference.

(** C109 assumes that the ellipses answer desired points of size [B] with points of size [B].  The code does not do so: with the
    unit circle as free space, a desired point within five metres is answered with one 30000 km away. *)
Definition ahead_pose : dpose f64 := MkDP (fst (fst near_y)) (snd (fst near_y)) fzero.
Theorem C111_tame_refuted : exists l, forall sq c s at2 g S, c fzero = f1 -> s fzero = fzero -> let M := ieee_maths sq c s at2 in
  ~ tame_cut 5 (v_cut ieee M g S (v_run ieee M l) None).
Proof.
  exists circle. intros sq c s at2 g S C0 S0 M T. specialize (T (snd near_y) ahead_pose). cbn [v_cut cut_outer cut_inner cut_bf] in T.
  assert (Small : forall x, fin x = true -> Bleb (fopp (fmake 5 0)) x = true -> Bleb x (fmake 5 0) = true -> held 5 x).
  { intros x F L1 L2. destruct (fmake_exact 5 ltac:(lia)) as (F5 & V5). split; [exact F|]. rewrite ble_ok in L1, L2 by auto. rewrite V5 in L2. assert (VO : f2r (fopp (fmake 5 0)) = -5) by (unfold f2r, fopp; rewrite B2R_Bopp; change (B2R (fmake 5 0)) with (f2r (fmake 5 0)); rewrite V5; lra).
    rewrite VO in L1. rcasesh L1; [|discriminate]. rcasesh L2; [|discriminate]. apply Rabs_le. lra. }
  destruct T as (T & _).
  - split; apply Small; vm_compute; reflexivity.
  - destruct T as (_ & F & T). revert F T. set (y := snd (v_project _ _ _ _ _)). intros F T.
    assert (L : Bltb (fmake 30000000 0) y = true).
    { unfold y, v_run, circle. cbn [fold_left]. unfold v_call, z_image. cbn [x_cos x_sin x_opp M ieee_maths]. rewrite C0, S0. vm_compute. reflexivity. }
    destruct (fmake_exact 30000000 ltac:(lia)) as (FK & VK). rewrite blt_ok, VK in L by auto. rcasesh L; [|discriminate]. apply Rabs_le_inv in T. lra.
Qed.
Print Assumptions C111_tame_refuted.

(** The reference the controller then follows. *)
Theorem C111_reference_refuted : exists l traj u, forall sq c s at2 th g S, c fzero = f1 -> s fzero = fzero -> th fzero = fzero -> S q_cons = fmake 2 0 -> let M := ieee_maths sq c s at2 in
  exists y v, p_free ieee th S (v_cut ieee M g S (v_run ieee M l) None) traj fzero u = Some (y, v) /\ Bltb (fmake 30000000 0) (snd y) = true /\ fin (snd y) = true.
Proof.
  exists circle, [MkQP fzero (snd near_y) (fzero, fzero)], ahead_pose. intros sq c s at2 th g S C0 S0 T0 SC M.
  assert (D : q_desired ieee [MkQP fzero (snd near_y) (fzero, fzero)] fzero = Some (snd near_y, (fzero, fzero))) by reflexivity.
  unfold p_free. rewrite D. cbn [cut_skip v_cut]. do 2 eexists. split; [reflexivity|]. cbn [cut_bf cut_outer cut_inner v_cut v_blend]. rewrite SC.
  assert (Z : a_mul ieee (fmake 2 0) (c0 ieee) = fzero) by (apply same_f64; vm_compute; reflexivity). rewrite Z, T0. unfold v_run, circle. cbn [fold_left]. unfold v_call, z_image. cbn [x_cos x_sin x_opp M ieee_maths]. rewrite C0, S0. vm_compute. auto.
Qed.
Print Assumptions C111_reference_refuted.

(** Away from such directions: the robot at the centre, facing along x, and a desired point at (3, 0) give a reference on the border. *)
Example C111_reference_example : forall sq c s at2 th g S, c fzero = f1 -> s fzero = fzero -> th fzero = fzero -> S q_cons = fmake 2 0 -> let M := ieee_maths sq c s at2 in
  exists y v, p_free ieee th S (v_cut ieee M g S (v_run ieee M circle) None) [MkQP fzero (fmake 3 0, fzero) (fzero, fzero)] fzero (MkDP fzero fzero fzero) = Some (y, v)
  /\ Beqb (fst y) f1 = true /\ Beqb (snd y) fzero = true.
Proof.
  intros sq c s at2 th g S C0 S0 T0 SC M.
  assert (D : q_desired ieee [MkQP fzero (fmake 3 0, fzero) (fzero, fzero)] fzero = Some ((fmake 3 0, fzero), (fzero, fzero))) by reflexivity.
  unfold p_free. rewrite D. cbn [cut_skip v_cut]. do 2 eexists. split; [reflexivity|]. cbn [cut_bf cut_outer cut_inner v_cut v_blend]. rewrite SC.
  assert (Z : a_mul ieee (fmake 2 0) (c0 ieee) = fzero) by (apply same_f64; vm_compute; reflexivity). rewrite Z, T0. unfold v_run, circle. cbn [fold_left]. unfold v_call, z_image. cbn [x_cos x_sin x_opp M ieee_maths]. rewrite C0, S0. vm_compute. auto.
Qed.
