(** Lemmas about the desired trajectory in doubles. *)
From Coq Require Import Reals ZArith Lra Lia List Bool Sorting.Sorted Sorting.Permutation.
From Flocq Require Import Core Relative Plus_error IEEE754.BinarySingleNaN.
From Verif Require Import Prelude UnicycleFoot PersonFollowing Rounding RoundedGen RoundedGenSpec RoundedGenProofs3 RoundedGenProofs4 Doubles DoublesSpec DoublesProofs DoublesProofs2
  EvalTac TrackDoubles TrackDoublesSpec.
Import ListNotations.
Open Scope R_scope.

(** ** One coordinate *)
Lemma sub_rel : forall x y, is_b64 x -> is_b64 y -> exists d, Rabs d <= u64 /\ b64 (x - y) = (x - y) * (1 + d).
Proof.
  intros x y Hx Hy.
  destruct (@FLT_plus_error_N_ex radix2 (-1074) 53 eq_refl (fun z => negb (Z.even z)) x (- y) Hx (generic_format_opp _ _ _ Hy)) as (d & D1 & D2).
  exists d. split; [|exact D2]. eapply Rle_trans; [exact D1|]. change (u_ro radix2 53) with u64. pose proof u64_val as U.
  assert (0 < u64) by (rewrite U; lra). apply Rmult_le_reg_r with (1 + u64); [lra|]. unfold Rdiv. rewrite Rmult_assoc, Rinv_l by lra. nra.
Qed.
Lemma b64_unit : forall x, 0 <= x <= 1 -> 0 <= b64 x <= 1.
Proof.
  intros x (A & B). apply (r_mono _ b64_rounding) in A. apply (r_mono _ b64_rounding) in B.
  rewrite (b64_fix 0 is_b64_0) in A. rewrite (b64_fix 1 is_b64_1) in B. lra.
Qed.
Section Mix.
Variables tp tn t : f64.
Hypothesis Fp : fin tp = true. Hypothesis Fn : fin tn = true. Hypothesis Ft : fin t = true.
Hypothesis P0 : 0 <= f2r tp. Hypothesis P1 : f2r tp <= f2r t. Hypothesis P2 : f2r t < f2r tn.
Let r : f64 := fdiv (fsub tn t) (fsub tn tp).
Let rho : R := (f2r tn - f2r t) / (f2r tn - f2r tp).
Lemma ratio_ok : fin r = true /\ 0 <= f2r r <= 1 /\ Rabs (f2r r - rho) <= 4 * u64 + eta64 /\ 0 <= rho <= 1
  /\ (f2r t = f2r tp -> f2r r = 1).
Proof.
  set (e := f2r tn - f2r t) in *. set (D := f2r tn - f2r tp) in *. assert (e0 : 0 < e) by (unfold e; lra). assert (eD : e <= D) by (unfold e, D; lra).
  pose proof (le_top tn) as LT. pose proof u64_val as U. assert (U0 : 0 < u64) by (rewrite U; lra). pose proof eta64_pos as E0.
  destruct (fsub_ok tn t Fn Ft) as (F1 & V1); [rewrite Rabs_pos_eq; fold e; unfold e in *; lra|]. fold e in V1.
  destruct (fsub_ok tn tp Fn Fp) as (F2 & V2); [rewrite Rabs_pos_eq; fold D; unfold D in *; lra|]. fold D in V2.
  destruct (sub_rel (f2r tn) (f2r t) (f2r_b64 tn) (f2r_b64 t)) as (d1 & B1 & E1). fold e in E1.
  destruct (sub_rel (f2r tn) (f2r tp) (f2r_b64 tn) (f2r_b64 tp)) as (d2 & B2 & E2). fold D in E2.
  apply Rabs_le_inv in B1. apply Rabs_le_inv in B2. assert (u64 <= / 1000) by (rewrite U; lra).
  set (e' := b64 e) in *. set (D' := b64 D) in *.
  assert (e1 : 0 < e') by (rewrite E1; apply Rmult_lt_0_compat; lra). assert (D1 : 0 < D') by (rewrite E2; apply Rmult_lt_0_compat; lra).
  assert (eD' : e' <= D') by (apply (r_mono _ b64_rounding); exact eD).
  assert (I : 0 < / D') by (apply Rinv_0_lt_compat; auto).
  assert (Q : 0 <= e' / D' <= 1). { split; [apply Rmult_le_pos; lra|]. apply Rmult_le_reg_r with D'; auto. unfold Rdiv. rewrite Rmult_assoc, Rinv_l by lra. lra. }
  assert (T1 : 1 <= top) by (eapply Rle_trans; [|apply pow_top]; change 1 with (bpow radix2 0); apply bpow_le; lia).
  destruct (fdiv_ok (fsub tn t) (fsub tn tp) F1) as (F3 & V3); [rewrite V2; lra|rewrite V1, V2, Rabs_pos_eq; lra|]. rewrite V1, V2 in V3. fold r in V3.
  assert (B01 : b64 1 = 1) by (apply b64_fix, is_b64_1). assert (B00 : b64 0 = 0) by (apply b64_fix, is_b64_0).
  split; [exact F3|]. split; [rewrite V3; apply b64_unit; exact Q|].
  assert (R0 : 0 <= rho <= 1). { unfold rho. fold e D. split; [apply Rmult_le_pos; [lra|left; apply Rinv_0_lt_compat; lra]|]. apply Rmult_le_reg_r with D; [lra|]. unfold Rdiv. rewrite Rmult_assoc, Rinv_l by lra. lra. }
  split; [|split; [exact R0|]].
  - assert (Z : Rabs (e' / D' - rho) <= 3 * u64).
    { replace (e' / D' - rho) with (rho * ((d1 - d2) / (1 + d2))). 2: { unfold rho. fold e D. rewrite E1, E2. field. split; lra. }
      rewrite Rabs_mult, (Rabs_pos_eq rho) by lra. assert (Y : Rabs ((d1 - d2) / (1 + d2)) <= 3 * u64).
      { unfold Rdiv. rewrite Rabs_mult, (Rabs_pos_eq (/ _)) by (left; apply Rinv_0_lt_compat; lra). apply Rmult_le_reg_r with (1 + d2); [lra|]. rewrite Rmult_assoc, Rinv_l by lra.
        assert (Rabs (d1 - d2) <= 2 * u64) by (apply Rabs_le; lra). nra. }
      pose proof (Rabs_pos ((d1 - d2) / (1 + d2))). nra. }
    assert (Y : Rabs (f2r r - e' / D') <= u64 * 1 + eta64) by (rewrite V3; apply b64_near; rewrite Rabs_pos_eq; lra).
    apply Rabs_le_inv in Z. apply Rabs_le_inv in Y. apply Rabs_le. lra.
  - intros Et. assert (ED : e = D) by (unfold e, D; lra). unfold e', D' in V3. rewrite ED in V3. fold D' in V3. rewrite V3. replace (D' / D') with 1 by (field; lra). exact B01.
Qed.
Lemma big_top : 4 * bpow radix2 1002 + 4 <= top.
Proof.
  eapply Rle_trans; [|apply pow_top]. assert (8 * bpow radix2 1002 <= bpow radix2 1023) by (change 8 with (bpow radix2 3); rewrite <- bpow_plus; apply bpow_le; lia).
  assert (1 <= bpow radix2 1002) by (change 1 with (bpow radix2 0); apply bpow_le; lia). lra.
Qed.
Lemma eta_tiny : 100 * eta64 <= u64 /\ 8 * eta64 <= bpow radix2 (-1070).
Proof.
  split.
  - unfold eta64, u64. apply Rle_trans with (bpow radix2 7 * (/ 2 * bpow radix2 (-1074))).
    + apply Rmult_le_compat_r; [pose proof (bpow_ge_0 radix2 (-1074)); lra|]. change (bpow radix2 7) with 128. lra.
    + replace (bpow radix2 7 * (/ 2 * bpow radix2 (-1074))) with (/ 2 * bpow radix2 (-1067)).
      2: { change (-1067)%Z with (7 + -1074)%Z. rewrite bpow_plus. ring. }
      apply Rmult_le_compat_l; [lra|]. apply bpow_le. lia.
  - unfold eta64. change (-1070)%Z with (4 + -1074)%Z. rewrite bpow_plus. change (bpow radix2 4) with 16. pose proof (bpow_ge_0 radix2 (-1074)). lra.
Qed.
Lemma mix_ok : forall a b, fin a = true /\ Rabs (f2r a) <= bpow radix2 1002 -> fin b = true /\ Rabs (f2r b) <= bpow radix2 1002 -> close64 1 (q_mix ieee r a b) (line64 tp tn t a b) a b
  /\ (f2r t = f2r tp -> f2r (q_mix ieee r a b) = f2r a).
Proof.
  intros a b (Fa & Sa) (Fb & Sb). destruct ratio_ok as (Fr & R01 & RE & R0 & RS). destruct f1_ok as (F1 & V1). destruct eta_tiny as (ET1 & ET2).
  pose proof u64_val as U. assert (U0 : 0 < u64) by (rewrite U; lra). assert (U1 : u64 <= / 1000) by (rewrite U; lra). pose proof eta64_pos as E0. pose proof big_top as BT.
  set (a0 := f2r a) in *. set (b0 := f2r b) in *. set (r0 := f2r r) in *. set (BIG := bpow radix2 1002) in *.
  pose proof (Rabs_pos a0) as Pa. pose proof (Rabs_pos b0) as Pb.
  unfold q_mix. rewrite c1_one. cbn [a_add a_mul a_sub ieee].
  destruct (fsub_ok f1 r F1 Fr) as (Fq & Vq). { rewrite V1. fold r0. rewrite Rabs_pos_eq by lra. lra. } rewrite V1 in Vq. fold r0 in Vq.
  set (q := fsub f1 r) in *. set (q0 := f2r q) in *.
  assert (B01 : b64 1 = 1) by (apply b64_fix, is_b64_1). assert (B00 : b64 0 = 0) by (apply b64_fix, is_b64_0).
  assert (Q01 : 0 <= q0 <= 1). { rewrite Vq. apply b64_unit. lra. }
  assert (QE : Rabs (q0 - (1 - r0)) <= u64 * 1 + eta64) by (rewrite Vq; apply b64_near; rewrite Rabs_pos_eq; lra).
  assert (M1 : Rabs (r0 * a0) <= Rabs a0). { rewrite Rabs_mult, (Rabs_pos_eq r0) by lra. rewrite <- (Rmult_1_l (Rabs a0)) at 2. apply Rmult_le_compat_r; lra. }
  assert (M2 : Rabs (q0 * b0) <= Rabs b0). { rewrite Rabs_mult, (Rabs_pos_eq q0) by lra. rewrite <- (Rmult_1_l (Rabs b0)) at 2. apply Rmult_le_compat_r; lra. }
  destruct (fmul_ok r a Fr Fa) as (Fm1 & Vm1); [fold r0 a0; lra|]. destruct (fmul_ok q b Fq Fb) as (Fm2 & Vm2); [fold q0 b0; lra|]. fold r0 a0 in Vm1. fold q0 b0 in Vm2.
  set (x := b64 (r0 * a0)) in *. set (y := b64 (q0 * b0)) in *.
  assert (XE : Rabs (x - r0 * a0) <= u64 * Rabs a0 + eta64) by (apply b64_near; auto). assert (YE : Rabs (y - q0 * b0) <= u64 * Rabs b0 + eta64) by (apply b64_near; auto).
  assert (UA : u64 * Rabs a0 <= / 1000 * Rabs a0) by (apply Rmult_le_compat_r; lra). assert (UB : u64 * Rabs b0 <= / 1000 * Rabs b0) by (apply Rmult_le_compat_r; lra).
  assert (UA0 : 0 <= u64 * Rabs a0) by (apply Rmult_le_pos; lra). assert (UB0 : 0 <= u64 * Rabs b0) by (apply Rmult_le_pos; lra).
  assert (XB : Rabs (x + y) <= 2 * (Rabs a0 + Rabs b0) + 2 * eta64).
  { apply Rabs_le_inv in XE. apply Rabs_le_inv in YE. apply Rabs_le_inv in M1. apply Rabs_le_inv in M2. apply Rabs_le. lra. }
  destruct (fadd_ok (fmul r a) (fmul q b) Fm1 Fm2) as (Fs & Vs). { rewrite Vm1, Vm2. lra. } rewrite Vm1, Vm2 in Vs.
  split.
  - split; [exact Fs|]. rewrite Vs, Rmult_1_l.
    assert (ZE : Rabs (b64 (x + y) - (x + y)) <= u64 * (2 * (Rabs a0 + Rabs b0) + 2 * eta64) + eta64) by (apply b64_near; auto).
    assert (L : line64 tp tn t a b = rho * a0 + (1 - rho) * b0). { unfold line64, rho. fold a0 b0. field. lra. }
    rewrite L.
    assert (G1 : Rabs ((r0 - rho) * a0) <= (4 * u64 + eta64) * Rabs a0) by (rewrite Rabs_mult; apply Rmult_le_compat_r; lra).
    assert (G2 : Rabs ((q0 - (1 - rho)) * b0) <= (5 * u64 + 2 * eta64) * Rabs b0).
    { rewrite Rabs_mult. apply Rmult_le_compat_r; [lra|]. apply Rabs_le_inv in QE. apply Rabs_le_inv in RE. apply Rabs_le. lra. }
    assert (HA : eta64 * Rabs a0 <= u64 * Rabs a0 / 100) by nra.
    assert (HB : eta64 * Rabs b0 <= u64 * Rabs b0 / 100) by nra.
    assert (HU : u64 * (2 * eta64) <= eta64) by nra.
    assert (U16 : bpow radix2 (-49) = 16 * u64) by (rewrite U; change (bpow radix2 (-49)) with (/ 562949953421312); lra). rewrite U16.
    replace (b64 (x + y) - (rho * a0 + (1 - rho) * b0)) with ((b64 (x + y) - (x + y)) + (x - r0 * a0) + (y - q0 * b0) + (r0 - rho) * a0 + (q0 - (1 - rho)) * b0) by ring.
    apply Rabs_le_inv in ZE. apply Rabs_le_inv in XE. apply Rabs_le_inv in YE. apply Rabs_le_inv in G1. apply Rabs_le_inv in G2. fold a0 b0. apply Rabs_le. lra.
  - intros Et. specialize (RS Et). fold r0 in RS. rewrite Vs. unfold x, y. rewrite Vq, RS. replace (1 - 1) with 0 by ring. rewrite B00, Rmult_0_l, B00, Rplus_0_r, Rmult_1_l. unfold a0. rewrite !f2r_fix. reflexivity.
Qed.
End Mix.

(** ** The search *)
Lemma last_step : forall (T : Type) (m : list T) a d, last (a :: m) d = last m a.
Proof. intros T m. induction m as [|b m IH]; intros a d; [reflexivity|]. change (last (a :: b :: m) d) with (last (b :: m) d). rewrite !IH. reflexivity. Qed.
Lemma find64 : forall t rl next p n, q_find ieee t next rl = Some (p, n) ->
  exists r1 r2, rl = r1 ++ p :: r2 /\ le64 (q_time p) t /\ List.Forall (fun q => Bleb (q_time q) t = false) r1
  /\ n = last (map Some r1) next.
Proof.
  intros t rl. induction rl as [|x r IH]; intros next p n H; cbn [q_find] in H; [discriminate|].
  change (a_le ieee (q_time x) t) with (Bleb (q_time x) t) in H. destruct (Bleb (q_time x) t) eqn:E.
  - injection H as <- <-. exists [], r. repeat split; [exact E|constructor].
  - destruct (IH _ _ _ H) as (r1 & r2 & -> & A & B & C). exists (x :: r1), r2. split; [reflexivity|]. split; [exact A|]. split; [constructor; auto|].
    rewrite C. cbn [map]. symmetry. apply last_step.
Qed.
Definition timesok (l : list point64) : Prop := forall p, In p l -> number (q_time p) /\ 0 <= key (q_time p).
Lemma in_mid : forall (T : Type) (l1 l2 : list T) x, In x (l1 ++ x :: l2). Proof. intros. apply in_or_app. right. left. reflexivity. Qed.
Lemma find_around : forall l t p n, timesok l -> number t -> q_find ieee t None (rev l) = Some (p, n) -> around l t p n.
Proof.
  intros l t p n H Ht F. apply find64 in F. destruct F as (r1 & r2 & E & A & B & C). exists (rev r2), (rev r1).
  assert (El : l = rev r2 ++ p :: rev r1). { rewrite <- (rev_involutive l), E, rev_app_distr. cbn [rev]. rewrite <- app_assoc. reflexivity. }
  split; [exact El|]. split; [exact A|]. split.
  - apply List.Forall_forall. intros q Hq. rewrite <- in_rev in Hq. rewrite List.Forall_forall in B. specialize (B q Hq).
    assert (Hl : In q l) by (rewrite El; apply in_or_app; right; right; rewrite <- in_rev; exact Hq). destruct (H q Hl) as (Nq & _).
    apply t_ordl; auto.
  - rewrite C. destruct r1 as [|x r1]; [reflexivity|]. destruct (exists_last (l := x :: r1)) as (m & z & Ez); [discriminate|].
    rewrite Ez, rev_app_distr, map_app. cbn [map rev app hd_error]. apply last_last.
Qed.
Lemma find_none : forall t rl next, q_find ieee t next rl = None -> forall p, In p rl -> Bleb (q_time p) t = false.
Proof.
  intros t rl. induction rl as [|x r IH]; intros next H p Hp; [destruct Hp|]. cbn [q_find] in H. change (a_le ieee (q_time x) t) with (Bleb (q_time x) t) in H.
  destruct (Bleb (q_time x) t) eqn:E; [discriminate|]. destruct Hp as [->|Hp]; [exact E|]. eapply IH; eauto.
Qed.
Lemma around_unique : forall l t p n p' n', around l t p n -> around l t p' n' -> p = p' /\ n = n'.
Proof.
  intros l t p n p' n' (a & b & E & Hp & Hb & Hn) (a' & b' & E' & Hp' & Hb' & Hn'). apply le64_inv in Hp. apply le64_inv in Hp'.
  assert (H : p :: b = p' :: b').
  { rewrite E in E'. clear E Hn Hn'. revert a' E'. induction a as [|x a IH]; intros a' E'; destruct a' as [|y a']; cbn in E'.
    - exact E'.
    - injection E' as -> ->. rewrite List.Forall_forall in Hb. specialize (Hb p' (in_mid _ _ _ _)). apply lt64_inv in Hb. lra.
    - injection E' as -> E'. subst b'. rewrite List.Forall_forall in Hb'. specialize (Hb' p (in_mid _ _ _ _)). apply lt64_inv in Hb'. lra.
    - injection E' as -> E'. eauto. }
  injection H as -> ->. subst. auto.
Qed.
Definition value64 (t : f64) (p : point64) (n : option point64) : (f64 * f64) * (f64 * f64) :=
  match n with None => (q_y p, q_yd p) | Some n => q_interp ieee t p n end.
Lemma desired64_value : forall l t v, timesok l -> number t -> q_desired ieee l t = Some v -> le64 fzero t /\ exists p n, around l t p n /\ v = value64 t p n.
Proof.
  intros l t v Hl Nt H. unfold q_desired in H. rewrite c0_zero in H. cbn [a_lt ieee] in H. destruct (Bltb t fzero) eqn:E0; [discriminate|].
  split; [apply t_nonneg; auto|]. destruct l as [|f l]; [discriminate|]. destruct (Bltb t (q_time f)); [discriminate|].
  destruct (q_find ieee t None (rev (f :: l))) as [[p n]|] eqn:E; [|discriminate]. apply find_around in E; auto. exists p, n. split; [auto|].
  destruct n; injection H as <-; reflexivity.
Qed.
Lemma desired64_from : forall l t p n, ordered64 l -> timesok l -> le64 fzero t -> around l t p n -> q_desired ieee l t = Some (value64 t p n).
Proof.
  intros l t p n Hs Hl Ht Ha. unfold q_desired. rewrite c0_zero. cbn [a_lt ieee]. pose proof (le64_number _ _ Ht) as (_ & Nt). pose proof (le64_inv _ _ Ht) as K. rewrite key_0 in K.
  rewrite blt_key by (auto using num0). rewrite key_0, rltb_f by lra. pose proof Ha as (a & b & E & Hp & _). apply le64_inv in Hp.
  destruct l as [|f l]; [destruct a; discriminate|].
  assert (Hf : key (q_time f) <= key (q_time p)).
  { destruct a as [|x a]; injection E as -> ->; [lra|]. inversion Hs as [|? ? _ Hf]; subst. rewrite List.Forall_forall in Hf. apply le64_inv, Hf, in_mid. }
  destruct (Hl f (or_introl eq_refl)) as (Nf & _). rewrite blt_key, rltb_f by (auto; lra).
  destruct (q_find ieee t None (rev (f :: l))) as [[p' n']|] eqn:E'.
  - apply find_around in E'; auto. destruct (around_unique _ _ _ _ _ _ Ha E') as [-> ->]. destruct n'; reflexivity.
  - pose proof (find_none _ _ _ E' f) as Z. rewrite ble_key in Z by auto. rewrite rleb_t in Z by lra. discriminate Z. rewrite <- in_rev. left. reflexivity.
Qed.
Lemma drop_split : forall t l1 p l2, ordered64 (l1 ++ p :: l2) -> le64 (q_time p) t -> List.Forall (fun q => lt64 t (q_time q)) l2 -> q_drop ieee t (l1 ++ p :: l2) = l2.
Proof.
  intros t l1 p l2 Hs Hp Hl. pose proof (le64_number _ _ Hp) as (Np & Nt). pose proof (le64_inv _ _ Hp) as Kp. induction l1 as [|x l1 IH]; cbn [app q_drop].
  - change (a_le ieee (q_time p) t) with (Bleb (q_time p) t). rewrite Hp. destruct l2 as [|q l2]; [reflexivity|]. cbn [q_drop]. inversion Hl as [|? ? Hq _]; subst.
    change (a_le ieee (q_time q) t) with (Bleb (q_time q) t). pose proof (lt64_number _ _ Hq) as (_ & Nq). rewrite ble_key, rleb_f by (auto; apply lt64_inv in Hq; lra). reflexivity.
  - inversion Hs as [|? ? Hs' Hf]; subst. rewrite List.Forall_forall in Hf. specialize (Hf p (in_mid _ _ _ _)). pose proof (le64_number _ _ Hf) as (Nx & _). apply le64_inv in Hf.
    change (a_le ieee (q_time x) t) with (Bleb (q_time x) t). rewrite ble_key, rleb_t by (auto; lra). auto.
Qed.
Lemma ordered_app : forall l1 l2, ordered64 (l1 ++ l2) -> ordered64 l2.
Proof. induction l1 as [|x l1 IH]; intros l2 H; [exact H|]. cbn in H. inversion H; subst. auto. Qed.
Lemma upto64 : forall T l, ordered64 l -> timesok l -> number T -> forall l', q_clearUpTo ieee T l = (l', true) ->
  (l = [] /\ l' = []) \/ (le64 fzero T /\ exists l1 p l2, l = l1 ++ p :: l2 /\ le64 (q_time p) T /\ List.Forall (fun q => lt64 T (q_time q)) l2
    /\ l' = MkQP T (fst (value64 T p (hd_error l2))) (snd (value64 T p (hd_error l2))) :: l2).
Proof.
  intros T l Hs Hl NT l' H. unfold q_clearUpTo in H. rewrite c0_zero in H. cbn [a_lt ieee] in H. destruct (Bltb T fzero) eqn:E0; [discriminate|].
  destruct l as [|f l]; [injection H as <-; auto|]. right. split; [apply t_nonneg; auto|].
  destruct (q_desired ieee (f :: l) T) as [[y yd]|] eqn:E; [|discriminate]. injection H as <-. apply desired64_value in E; auto. destruct E as (_ & p & n & (a & b & Ea & Hp & Hb & Hn) & Ev).
  assert (D : q_drop ieee T (f :: l) = b) by (rewrite Ea in *; eapply drop_split; eauto).
  exists a, p, b. split; [exact Ea|]. split; [exact Hp|]. split; [exact Hb|]. rewrite <- Hn, <- Ev. f_equal. exact D.
Qed.
Lemma upto_ok : forall t l, number t -> ordered64 l -> timesok l -> ordered64 (fst (q_clearUpTo ieee t l)) /\ timesok (fst (q_clearUpTo ieee t l)).
Proof.
  intros t l Ho Hs Hl.
  destruct (q_clearUpTo ieee t l) as [l' b] eqn:E. cbn [fst]. destruct b.
    + apply upto64 in E; auto. destruct E as [(-> & ->)|(H0 & l1 & p & l2 & El & Hp & Hb & ->)]; [auto|]. rewrite El in *. apply ordered_app in Hs. inversion Hs; subst. split.
      * constructor; [assumption|]. eapply List.Forall_impl; [|exact Hb]. cbn [q_time]. intros q Hq. pose proof (lt64_number _ _ Hq) as (? & ?). apply lt64_inv in Hq. apply le64_key; auto; lra.
      * intros q [<-|Hq]; [cbn [q_time]; split; [exact Ho|rewrite <- key_0; apply le64_inv; exact H0]|]. apply Hl. apply in_or_app. right. right. exact Hq.
    + assert (l' = l); [|subst; auto]. unfold q_clearUpTo in E. destruct (a_lt ieee t (c0 ieee)); [congruence|]. destruct l; [congruence|]. destruct (q_desired _ _ _) as [[? ?]|]; congruence.
Qed.
Lemma call_ok : forall f o l, sorts64 f -> timed o -> ordered64 l -> timesok l -> ordered64 (q_call ieee f l o) /\ timesok (q_call ieee f l o).
Proof.
  intros f o l Hf Ho Hs Hl. destruct o as [p| |t]; cbn [q_call timed] in *.
  - unfold q_setPoint. rewrite c0_zero. cbn [a_lt ieee]. destruct (Bltb (q_time p) fzero) eqn:E; [auto|]. cbn [fst].
    assert (H : timesok (l ++ [p])). { intros q Hq. apply in_app_iff in Hq. destruct Hq as [Hq|[<-|[]]]; [auto|]. split; [exact Ho|]. rewrite <- key_0. apply le64_inv, t_nonneg; auto. }
    destruct (Hf (l ++ [p])) as (P & O); [intros q Hq; apply H; auto|]. split; [exact O|]. intros q Hq. apply H. eapply Permutation_in; [apply Permutation_sym, P|exact Hq].
  - split; [constructor|]. intros p [].
  - apply upto_ok; auto.
Qed.
Lemma history_ok : forall f ops, sorts64 f -> List.Forall timed ops -> ordered64 (q_history ieee f ops) /\ timesok (q_history ieee f ops).
Proof.
  intros f ops Hf Ho. unfold q_history. assert (H : ordered64 (q_new ieee) /\ timesok (q_new ieee)).
  { unfold q_new. split; [constructor; constructor|]. intros p [<-|[]]. cbn [q_time]. rewrite c0_zero, key_0. split; [apply num0|lra]. }
  revert H. generalize (q_new ieee). induction Ho as [|o r H1 Hr IH]; intros l (A & B); [auto|]. cbn [fold_left]. apply IH. apply call_ok; auto.
Qed.

(** ** Clearing the past *)
Definition unit64 (a b : f64) : R := bpow radix2 (-49) * (Rabs (f2r a) + Rabs (f2r b)) + bpow radix2 (-1070).
Lemma key_finite : forall x, number x -> - bpow radix2 1024 < key x < bpow radix2 1024 -> fin x = true.
Proof. intros x N K. destruct (number_cases x N) as [F|[H|H]]; [exact F| |]; subst x; cbn [key finf] in K; lra. Qed.
Lemma line_bound : forall tp tn t a b, f2r tp <= f2r t -> f2r t < f2r tn -> Rabs (line64 tp tn t a b) <= Rabs (f2r a) + Rabs (f2r b).
Proof.
  intros tp tn t a b H1 H2. unfold line64. set (s := (f2r t - f2r tp) / (f2r tn - f2r tp)).
  assert (S01 : 0 <= s <= 1). { unfold s. split; [apply Rmult_le_pos; [lra|left; apply Rinv_0_lt_compat; lra]|]. apply Rmult_le_reg_r with (f2r tn - f2r tp); [lra|]. unfold Rdiv. rewrite Rmult_assoc, Rinv_l by lra. lra. }
  replace (f2r a + s * (f2r b - f2r a)) with ((1 - s) * f2r a + s * f2r b) by ring. eapply Rle_trans; [apply Rabs_triang|]. rewrite !Rabs_mult, (Rabs_pos_eq s), (Rabs_pos_eq (1 - s)) by lra.
  pose proof (Rabs_pos (f2r a)). pose proof (Rabs_pos (f2r b)). nra.
Qed.
(** The value kept at [T] is close to the line, so what is interpolated from it is. *)
Lemma remix : forall tp tn T t a b c m, fin T = true -> fin tn = true -> fin t = true -> 0 <= f2r tp -> f2r tp <= f2r T -> f2r T <= f2r t -> f2r t < f2r tn ->
  sized a -> sized b -> 0 <= m -> m <= bpow radix2 40 -> close64 (4 * m) c (line64 tp tn T a b) a b ->
  close64 (4 * (m + 1)) (q_mix ieee (fdiv (fsub tn t) (fsub tn T)) c b) (line64 tp tn t a b) a b.
Proof.
  intros tp tn T t a b c m FT Fn Ft P0 P1 P2 P3 (Fa & Sa) (Fb & Sb) M0 M1 (Fc & Ec). fold (unit64 a b) in Ec.
  pose proof (line_bound tp tn T a b P1 ltac:(lra)) as LB. pose proof (Rabs_pos (f2r a)) as Pa. pose proof (Rabs_pos (f2r b)) as Pb.
  set (A := Rabs (f2r a)) in *. set (B := Rabs (f2r b)) in *. assert (P49 : bpow radix2 (-49) = / 562949953421312) by reflexivity. assert (P40 : bpow radix2 40 = 1099511627776) by reflexivity.
  pose proof (bpow_gt_0 radix2 (-1070)) as W0. set (w := bpow radix2 (-1070)) in *.
  assert (W1 : w <= / 1000000000000000000) by (apply Rle_trans with (bpow radix2 (-60)); [apply bpow_le; lia|change (bpow radix2 (-60)) with (/ 1152921504606846976); lra]).
  assert (EU : unit64 a b = / 562949953421312 * (A + B) + w) by (unfold unit64; fold A B w; rewrite P49; reflexivity).
  assert (MU : 4 * m * unit64 a b <= / 100 * (A + B) + 4 * (m * w)). { rewrite EU. assert (m * (A + B) <= 1099511627776 * (A + B)) by (apply Rmult_le_compat_r; lra). lra. }
  assert (MW : m * w <= 1099511627776 * w) by (apply Rmult_le_compat_r; lra).
  assert (CB : Rabs (f2r c) <= 102 / 100 * (A + B) + 4 * (m * w)). { apply Rabs_le_inv in Ec. apply Rabs_le_inv in LB. apply Rabs_le. lra. }
  assert (D1 : bpow radix2 1002 = 4 * bpow radix2 1000) by (change 1002%Z with (2 + 1000)%Z; rewrite bpow_plus; reflexivity).
  assert (D0 : 1 <= bpow radix2 1000) by (change 1 with (bpow radix2 0); apply bpow_le; lia).
  assert (FB : fin b = true /\ Rabs (f2r b) <= bpow radix2 1002) by (split; [exact Fb|fold B; lra]).
  assert (FC : fin c = true /\ Rabs (f2r c) <= bpow radix2 1002) by (split; [exact Fc|lra]).
  destruct (mix_ok T tn t FT Fn Ft ltac:(lra) P2 P3 c b FC FB) as ((Fx & Ex) & _). split; [exact Fx|]. fold (unit64 a b). rewrite Rmult_1_l in Ex. fold B w in Ex. rewrite P49 in Ex.
  assert (L : line64 T tn t c b - line64 tp tn t a b = (f2r tn - f2r t) / (f2r tn - f2r T) * (f2r c - line64 tp tn T a b)) by (unfold line64; field; lra).
  set (g := (f2r tn - f2r t) / (f2r tn - f2r T)) in *.
  assert (G : 0 <= g <= 1). { unfold g. split; [apply Rmult_le_pos; [lra|left; apply Rinv_0_lt_compat; lra]|]. apply Rmult_le_reg_r with (f2r tn - f2r T); [lra|]. unfold Rdiv. rewrite Rmult_assoc, Rinv_l by lra. lra. }
  assert (LE : Rabs (line64 T tn t c b - line64 tp tn t a b) <= 4 * m * unit64 a b).
  { rewrite L, Rabs_mult, (Rabs_pos_eq g) by lra. pose proof (Rabs_pos (f2r c - line64 tp tn T a b)). nra. }
  assert (U4 : / 562949953421312 * (Rabs (f2r c) + B) + w <= 4 * unit64 a b). { rewrite EU. lra. }
  apply Rabs_le_inv in LE. apply Rabs_le_inv in Ex. replace (4 * (m + 1) * unit64 a b) with (4 * m * unit64 a b + 4 * unit64 a b) by ring. apply Rabs_le. lra.
Qed.

(** What a list that had its past cleared [m] times keeps of the segment around [t]. *)
Section Kept.
Variables (t : f64) (p : point64) (l2 : list point64).
Hypothesis T0 : le64 fzero t. Hypothesis P0 : 0 <= f2r (q_time p). Hypothesis Hp : le64 (q_time p) t. Hypothesis Hb : List.Forall (fun q => lt64 t (q_time q)) l2.
Definition near (m : R) (p' : point64) : Prop :=
  match l2 with
  | [] => q_y p' = q_y p /\ q_yd p' = q_yd p
  | n :: _ => plain p -> plain n -> f2r (q_time p) <= f2r (q_time p') /\ fin (q_time p') = true
      /\ on_line64 (4 * m) (q_time p') p n (q_y p') q_y /\ on_line64 (4 * m) (q_time p') p n (q_yd p') q_yd
  end.
Definition keeps (m : R) (l : list point64) : Prop :=
  ordered64 l /\ timesok l /\ exists l1 p', l = l1 ++ p' :: l2 /\ le64 (q_time p') t /\ near m p'.
Lemma close_more : forall k k' x v a b, k <= k' -> close64 k x v a b -> close64 k' x v a b.
Proof.
  intros k k' x v a b H (F & E). split; [exact F|]. eapply Rle_trans; [exact E|]. apply Rmult_le_compat_r; [|exact H].
  pose proof (bpow_ge_0 radix2 (-49)). pose proof (bpow_ge_0 radix2 (-1070)). pose proof (Rabs_pos (f2r a)). pose proof (Rabs_pos (f2r b)).
  assert (0 <= bpow radix2 (-49) * (Rabs (f2r a) + Rabs (f2r b))) by (apply Rmult_le_pos; lra). lra.
Qed.
Lemma near_more : forall m m' q, m <= m' -> near m q -> near m' q.
Proof.
  intros m m' q H. unfold near. destruct l2 as [|n r]; [auto|]. intros N P1 P2. destruct (N P1 P2) as (A & F & (B1 & B2) & (C1 & C2)). split; [exact A|]. split; [exact F|].
  unfold on_line64 in *. split; split; eapply close_more; try eassumption; lra.
Qed.
Lemma close_self : forall tp tn a b, fin a = true -> close64 (4 * 0) a (line64 tp tn tp a b) a b.
Proof.
  intros tp tn a b F. split; [exact F|]. replace (line64 tp tn tp a b) with (f2r a) by (unfold line64, Rdiv; ring). rewrite Rmult_0_r, Rmult_0_l, Rminus_diag_eq, Rabs_R0 by reflexivity. lra.
Qed.
Lemma keeps_first : forall l l1, ordered64 l -> timesok l -> l = l1 ++ p :: l2 -> keeps 0 l.
Proof.
  intros l l1 Hs Hl E. split; [exact Hs|]. split; [exact Hl|]. exists l1, p. split; [exact E|]. split; [exact Hp|]. unfold near. destruct l2 as [|n r]; [auto|].
  intros (F & (A1 & _) & (A2 & _) & (A3 & _) & (A4 & _)) _. split; [lra|]. split; [exact F|]. unfold on_line64. split; split; apply close_self; assumption.
Qed.
Lemma remix2 : forall T n m p' of (y : point64 -> f64 * f64), (forall q, plain q -> sized (fst (of q)) /\ sized (snd (of q))) ->
  plain p -> plain n -> fin (q_time p') = true -> fin T = true -> 0 <= f2r (q_time p) -> f2r (q_time p) <= f2r (q_time p') -> f2r (q_time p') <= f2r T -> f2r T < f2r (q_time n) ->
  0 <= m -> m <= bpow radix2 40 -> on_line64 (4 * m) (q_time p') p n (y p') of ->
  on_line64 (4 * (m + 1)) T p n (q_mix2 ieee (q_ratio ieee T (MkQP (q_time p') (y p') (y p')) n) (y p') (of n)) of.
Proof.
  intros T n m p' of y Hof Pp Pn F FT Z0 Z1 Z2 Z3 M0 M1 (C1 & C2). destruct (Hof p Pp) as (Sp1 & Sp2). destruct (Hof n Pn) as (Sn1 & Sn2). destruct Pn as (Fn & _).
  unfold on_line64. cbv zeta. cbn [q_mix2 fst snd]. unfold q_ratio. cbn [q_time a_div a_sub ieee]. split; eapply remix with (T := q_time p'); eauto.
Qed.
Lemma nonneg_key : forall x, le64 fzero x -> 0 <= key x. Proof. intros x H. apply le64_inv in H. rewrite key_0 in H. exact H. Qed.
Lemma keeps_step : forall m l T, 0 <= m -> m <= bpow radix2 40 -> le64 T t -> keeps m l -> keeps (m + 1) (fst (q_clearUpTo ieee T l)).
Proof.
  intros m l T M0 M1 HT (Hs & Hl & l1 & p' & E & Hp' & Hn). pose proof (le64_number _ _ HT) as (NT & Nt).
  assert (K : keeps (m + 1) l). { split; [exact Hs|]. split; [exact Hl|]. exists l1, p'. split; [exact E|]. split; [exact Hp'|]. eapply near_more; [|exact Hn]. lra. }
  destruct (q_clearUpTo ieee T l) as [l' ok] eqn:Q. cbn [fst]. destruct ok.
  2: { assert (l' = l); [|subst; exact K]. unfold q_clearUpTo in Q. destruct (a_lt ieee T (c0 ieee)); [congruence|]. destruct l; [congruence|]. destruct (q_desired _ _ _) as [[? ?]|]; congruence. }
  destruct (upto_ok T l NT Hs Hl) as (Os & Ot). rewrite Q in Os, Ot. cbn [fst] in Os, Ot.
  destruct (upto64 T l Hs Hl NT l' Q) as [(-> & _)|(H0 & a & p2 & b & E2 & Hp2 & Hb2 & E3)]; [destruct l1; discriminate|].
  split; [exact Os|]. split; [exact Ot|]. pose proof (le64_inv _ _ HT) as KT. pose proof (le64_number _ _ Hp') as (Np' & _).
  destruct (Rle_or_lt (key (q_time p')) (key T)) as [L|L].
  - assert (A1 : around l T p' (hd_error l2)).
    { exists l1, l2. split; [exact E|]. split; [apply le64_key; auto|]. split; [|reflexivity]. eapply List.Forall_impl; [|exact Hb]. cbn beta. intros q Hq. pose proof (lt64_number _ _ Hq) as (_ & ?). apply lt64_inv in Hq. apply lt64_key; auto; lra. }
    assert (A2 : around l T p2 (hd_error b)) by (exists a, b; auto).
    destruct (around_unique _ _ _ _ _ _ A1 A2) as (<- & Eh). assert (Eb : b = l2).
    { pose proof (drop_split T a p' b ltac:(rewrite <- E2; exact Hs) Hp2 Hb2) as D1. rewrite <- E2, E in D1. rewrite <- D1. apply drop_split; [rewrite <- E; exact Hs|apply le64_key; auto|].
      eapply List.Forall_impl; [|exact Hb]. cbn beta. intros q Hq. pose proof (lt64_number _ _ Hq) as (_ & ?). apply lt64_inv in Hq. apply lt64_key; auto; lra. }
    subst b. eexists [], _. split; [exact E3|]. split; [exact HT|]. clear Os Ot A1 A2 Q Hs Hl E E2 E3 Eh K. unfold near in *. destruct l2 as [|n r]; [exact Hn|].
    intros Pp Pn. destruct (Hn Pp Pn) as (B1 & B2 & B3 & B4). cbn [hd_error value64 q_time q_y q_yd]. unfold q_interp. cbn [fst snd].
    inversion Hb as [|? ? Hnt _]; subst. apply lt64_inv in Hnt. apply nonneg_key in H0. pose proof Pn as (Fn & _). pose proof Pp as (Fp & _). pose proof (fin_key _ Fn) as Kn.
    assert (FT : fin T = true) by (apply key_finite; [auto|lra]). rewrite (key_fin _ FT), (key_fin _ B2) in L. rewrite (key_fin _ FT) in KT. rewrite (key_fin _ Fn) in Hnt.
    split; [lra|]. split; [exact FT|]. assert (FP0 : 0 <= f2r (q_time p)) by exact P0. split.
    + apply (remix2 T n m p' q_y q_y); auto; try lra. intros q (_ & ? & ? & _); auto.
    + apply (remix2 T n m p' q_yd q_yd); auto; try lra. intros q (_ & _ & _ & ? & ?); auto.
  - rewrite E in E2. apply app_eq_app in E2. destruct E2 as (z & [(E4 & E5)|(E4 & E5)]).
    + destruct z as [|y z]; injection E5 as -> ->.
      * apply le64_inv in Hp2. lra.
      * exists (MkQP T (fst (value64 T y (hd_error (z ++ p' :: l2)))) (snd (value64 T y (hd_error (z ++ p' :: l2)))) :: z), p'. split; [exact E3|]. split; [exact Hp'|]. eapply near_more; [|exact Hn]. lra.
    + destruct z as [|y z]; injection E5 as -> ->.
      * apply le64_inv in Hp2. lra.
      * rewrite List.Forall_forall in Hb. specialize (Hb p2 (in_mid _ _ _ _)). apply lt64_inv in Hb. apply le64_inv in Hp2. lra.
Qed.
Lemma keeps_all : forall Ts m l, 0 <= m -> m + INR (length Ts) <= bpow radix2 40 -> List.Forall (fun T => le64 T t) Ts -> keeps m l ->
  keeps (m + INR (length Ts)) (fold_left (fun l T => fst (q_clearUpTo ieee T l)) Ts l).
Proof.
  intros Ts. induction Ts as [|T r IH]; intros m l M0 M1 HT K; cbn [length fold_left]; [cbn [INR]; rewrite Rplus_0_r; exact K|].
  cbn [length] in M1. rewrite S_INR in *. pose proof (pos_INR (length r)). inversion HT; subst. replace (m + (INR (length r) + 1)) with ((m + 1) + INR (length r)) by ring.
  apply IH; [lra|lra|auto|]. apply keeps_step; auto; lra.
Qed.
Lemma keeps_value : forall m l, 0 <= m -> m <= bpow radix2 40 -> keeps m l -> exists v, q_desired ieee l t = Some v /\
  match l2 with
  | [] => v = (q_y p, q_yd p)
  | n :: _ => plain p -> plain n -> on_line64 (4 * (m + 1)) t p n (fst v) q_y /\ on_line64 (4 * (m + 1)) t p n (snd v) q_yd
  end.
Proof.
  intros m l M0 M1 (Hs & Hl & l1 & p' & E & Hp' & Hn). exists (value64 t p' (hd_error l2)). split.
  - apply desired64_from; auto. exists l1, l2. auto.
  - unfold near in Hn. destruct l2 as [|n r]; [cbn [hd_error value64]; destruct Hn as (-> & ->); reflexivity|]. intros Pp Pn. destruct (Hn Pp Pn) as (B1 & B2 & B3 & B4). cbn [hd_error value64]. unfold q_interp. cbn [fst snd].
    inversion Hb as [|? ? Hnt _]; subst. apply lt64_inv in Hnt. pose proof (nonneg_key _ T0) as H0. pose proof Pn as (Fn & _). pose proof Pp as (Fp & _). pose proof (fin_key _ Fn) as Kn. pose proof (le64_number _ _ T0) as (_ & Nt).
    assert (FT : fin t = true) by (apply key_finite; [auto|lra]). apply le64_inv in Hp'. rewrite (key_fin _ FT), (key_fin _ B2) in Hp'. rewrite (key_fin _ FT), (key_fin _ Fn) in Hnt. split.
    + apply (remix2 t n m p' q_y q_y); auto; try lra. intros q (_ & ? & ? & _); auto.
    + apply (remix2 t n m p' q_yd q_yd); auto; try lra. intros q (_ & _ & _ & ? & ?); auto.
Qed.
End Kept.

(** ** The exact instance *)
Lemma find_exact : forall t rl n, q_find reals t (option_map qp_of n) (map qp_of rl) = option_map (fun r => (qp_of (fst r), option_map qp_of (snd r))) (find_rev t n rl).
Proof.
  intros t rl. induction rl as [|p r IH]; intros n; [reflexivity|]. cbn [map q_find find_rev]. change (a_le reals (q_time (qp_of p)) t) with (Rleb (t_time p) t).
  destruct (Rleb (t_time p) t); [reflexivity|]. apply (IH (Some p)).
Qed.
Lemma c0r : c0 reals = 0. Proof. unfold c0. cbn. lra. Qed.
Lemma c1r : c1 reals = 1. Proof. unfold c1. cbn. lra. Qed.
Lemma desired_exact : forall l t, q_desired reals (map qp_of l) t = option_map qr_of (pf_desired l t).
Proof.
  intros l t. unfold q_desired, pf_desired. rewrite c0r. cbn [a_lt reals]. destruct (Rltb t 0); [reflexivity|]. destruct l as [|f l]; [reflexivity|]. cbn [map].
  change (q_time (qp_of f)) with (t_time f). destruct (Rltb t (t_time f)); [reflexivity|]. change (qp_of f :: map qp_of l) with (map qp_of (f :: l)). rewrite <- map_rev. pose proof (find_exact t (rev (f :: l)) None) as X. cbn [option_map] in X. rewrite X. clear X.
  destruct (find_rev t None (rev (f :: l))) as [[p [n|]]|]; [|reflexivity|reflexivity]. cbn [option_map fst snd]. unfold q_interp, q_mix2, q_mix, q_ratio. rewrite c1r. reflexivity.
Qed.
Lemma upto_exact : forall t k, q_clearUpTo reals t (map qp_of (k_traj k)) = (map qp_of (k_traj (fst (pf_clearUpTo t k))), snd (pf_clearUpTo t k)).
Proof.
  intros t k. unfold q_clearUpTo, pf_clearUpTo. rewrite c0r. cbn [a_lt reals]. destruct (Rltb t 0); [reflexivity|]. destruct (k_traj k) as [|f l] eqn:E; [cbn; rewrite E; reflexivity|].
  rewrite desired_exact. destruct (pf_desired (f :: l) t) as [[y yd]|]; [|cbn [option_map fst snd]; rewrite E; reflexivity]. cbn [option_map qr_of fst snd pf_with_traj k_traj map]. f_equal. f_equal.
  change (qp_of f :: map qp_of l) with (map qp_of (f :: l)). clear E. induction (f :: l) as [|p r IH]; [reflexivity|]. cbn [map q_drop drop_le]. change (a_le reals (q_time (qp_of p)) t) with (Rleb (t_time p) t). destruct (Rleb (t_time p) t); [exact IH|reflexivity].
Qed.
(** ** A sort *)
Fixpoint ins64 (p : point64) (l : list point64) : list point64 := match l with [] => [p] | q :: r => if Bltb (q_time p) (q_time q) then p :: l else q :: ins64 p r end.
Definition isort64 (l : list point64) : list point64 := fold_right ins64 [] l.
Lemma ins64_perm : forall p l, Permutation (p :: l) (ins64 p l).
Proof. intros p l. induction l as [|q r IH]; cbn; [auto|]. destruct (Bltb _ _); [auto|]. eapply perm_trans; [apply perm_swap|]. constructor. exact IH. Qed.
Lemma ins64_sorted : forall p l, number (q_time p) -> (forall q, In q l -> number (q_time q)) -> ordered64 l -> ordered64 (ins64 p l).
Proof.
  intros p l Np. induction l as [|q r IH]; intros Nl Hs; cbn; [constructor; constructor|]. inversion Hs as [|? ? H1 H2]; subst. destruct (Bltb (q_time p) (q_time q)) eqn:E.
  - constructor; [exact Hs|]. apply lt64_inv in E. assert (Nq : number (q_time q)) by (apply Nl; left; reflexivity). constructor; [apply le64_key; auto; lra|]. rewrite List.Forall_forall in *. intros z Hz.
    specialize (H2 z Hz). apply le64_inv in H2. apply le64_key; auto; [apply Nl; right; auto|lra].
  - assert (Nq : number (q_time q)) by (apply Nl; left; reflexivity). constructor; [apply IH; auto; intros; apply Nl; right; auto|]. rewrite List.Forall_forall in *. intros z Hz. apply (Permutation_in _ (Permutation_sym (ins64_perm p r))) in Hz. destruct Hz as [<-|Hz]; [apply t_ord; auto|auto].
Qed.
Lemma isort64_sorts : sorts64 isort64.
Proof.
  intros l. induction l as [|p r IH]; intros Nl; cbn [isort64 fold_right]; [split; [auto|constructor]|]. destruct (IH (fun q Hq => Nl q (or_intror Hq))) as (P & O). split.
  - eapply perm_trans; [|apply ins64_perm]. constructor. exact P.
  - apply ins64_sorted; auto; [apply Nl; left; reflexivity|]. intros q Hq. apply Nl. right. eapply Permutation_in; [apply Permutation_sym, P|exact Hq].
Qed.
