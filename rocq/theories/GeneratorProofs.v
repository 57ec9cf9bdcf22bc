(** Lemmas about the whole generator. *)
From Coq Require Import String Reals Lra Lia ZArith List Bool Sorting.Sorted Sorting.Permutation.
From Verif Require Import Prelude EvalTac Rounding FootPrint Ellipse EllipseProofs GenPhases GenSpec GenProofs GenProofs2 GenProofs3 Properties_Generator
  FeetTraj FeetSpline FeetSpec FeetProofs FeetProofs2 ZMP ZMPSpec ZMPProofs ZMPProofs2 ZMPProofs3 ZMPProofs4 ZMPProofs5 CoMHeight DCM Generator GeneratorSpec.
Import ListNotations.
Open Scope R_scope.

(** ** Headings *)
Lemma same_direction : forall a b, cos a = cos b -> sin a = sin b -> same_heading a b.
Proof.
  intros a b Hc Hs. set (z := a - b). assert (Cz : cos z = 1).
  { unfold z. rewrite cos_minus, Hc, Hs. pose proof (sin2_cos2 b) as Q. unfold Rsqr in Q. lra. }
  assert (Sz : sin (z / 2) = 0).
  { replace z with (2 * (z / 2)) in Cz by field. rewrite cos_2a_sin in Cz. assert (Q : sin (z / 2) * sin (z / 2) = 0) by lra. apply Rmult_integral in Q. tauto. }
  destruct (sin_eq_0_0 _ Sz) as (k & Hk). exists k. unfold z in Hk. lra.
Qed.
Lemma atan2_range : forall y x, - PI < atan2 y x <= PI.
Proof.
  intros y x. pose proof PI_RGT_0 as Pp. unfold atan2.
  assert (B : - (PI / 2) < atan (y / x) < PI / 2) by (pose proof (atan_bound (y / x)); lra).
  destruct (Rlt_dec 0 x); [lra|]. destruct (Rlt_dec x 0) as [Hx|].
  - assert (I : / x < 0) by (apply Rinv_lt_0_compat; auto). destruct (Rle_dec 0 y) as [Hy|Hy].
    + assert (A : atan (y / x) <= 0); [|lra]. rewrite <- atan_0. destruct (Req_dec y 0) as [->|]; [unfold Rdiv; rewrite Rmult_0_l; lra|].
      apply Rlt_le, atan_increasing. unfold Rdiv. rewrite <- Ropp_0. rewrite <- (Ropp_involutive (y * / x)). apply Ropp_lt_contravar.
      replace (- (y * / x)) with (y * - / x) by ring. apply Rmult_lt_0_compat; lra.
    + assert (A : 0 < atan (y / x)); [|lra]. rewrite <- atan_0. apply atan_increasing. replace (y / x) with ((- y) * (- / x)) by (unfold Rdiv; ring). apply Rmult_lt_0_compat; lra.
  - destruct (Rlt_dec 0 y); [lra|]. destruct (Rlt_dec y 0); lra.
Qed.
Lemma edit_heading : forall p m, let e := edit_step p m in st_pos e = st_pos m /\ st_time e = st_time m /\ st_name e = st_name p
  /\ same_heading (st_angle e) (st_angle m) /\ Rabs (st_angle e - st_angle p) <= PI.
Proof.
  intros p m. unfold edit_step. cbn [st_pos st_time st_name st_angle]. repeat (split; [reflexivity|]).
  set (a := st_angle p). set (b := st_angle m). set (d := atan2 _ _).
  assert (D : cos d = cos (b - a) /\ sin d = sin (b - a)).
  { unfold d. replace (cos a * sin b - sin a * cos b) with (sin (b - a)) by (rewrite sin_minus; ring). replace (cos a * cos b + sin a * sin b) with (cos (b - a)) by (rewrite cos_minus; ring).
    destruct (atan2_polar (cos (b - a)) (sin (b - a)) 1) as [-> ->]; [lra|pose proof (sin2_cos2 (b - a)) as Q; unfold Rsqr in Q; lra|]. split; field. }
  split.
  - destruct D as [D1 D2]. destruct (same_direction d (b - a) D1 D2) as (k & Hk). exists k. lra.
  - replace (a + d - a) with d by ring. pose proof (atan2_range (cos a * sin b - sin a * cos b) (cos a * cos b + sin a * sin b)) as R0. fold d in R0. apply Rabs_le. lra.
Qed.

(** ** The present step *)
Lemma find_present : forall l t s, find (fun a => Rleb (st_time a) t) (rev l) = Some s ->
  exists pre post, l = pre ++ s :: post /\ st_time s <= t /\ List.Forall (fun x => t < st_time x) post.
Proof.
  intros l t s. induction l as [|x l IH] using rev_ind; [discriminate|]. rewrite rev_app_distr. cbn [rev app find]. destruct (Rleb (st_time x) t) eqn:E.
  - intros H. injection H as <-. exists l, []. split; auto. split; [apply Rleb_true; auto|constructor].
  - intros H. destruct (IH H) as (pre & post & -> & H1 & H2). exists pre, (post ++ [x]). rewrite <- app_assoc. split; auto. split; auto. apply Forall_app. split; auto. constructor; auto. apply Rleb_false in E. lra.
Qed.
Lemma keep_inv : forall t fp fp', fp_keepPresent t fp = (fp', true) ->
  exists s, present fp t s /\ fp' = MkFP [MkStep (st_pos s) (st_angle s) (st_time s) (fp_name fp)] (fp_name fp) /\ 0 <= st_time s.
Proof.
  intros t fp fp' H. unfold fp_keepPresent in H. destruct (find _ _) as [s|] eqn:E; [|discriminate]. unfold fp_addStep in H. cbn in H. destruct (Rltb (st_time s) 0) eqn:E2; [discriminate|]. injection H as <-.
  exists s. split; [exact (find_present _ _ _ E)|]. split; auto. apply Rltb_false in E2. lra.
Qed.

(** ** Corrected foot prints *)
Section Replan.
Variable plan : footprint -> footprint -> R -> R -> footprint * footprint * bool.
Variable garbage : bool.
Variable g : gen.
Variables init tend : R.
Variables mL mR : step.
Variable k : correction.

Lemma edited_spec : forall reset pl pr, st_time pl <= init -> st_time pr <= init -> let '(el, er) := edited init reset k pl pr mL mR in
  st_time el <= init /\ st_time er <= init
  /\ (corr_left k = false -> st_pos el = st_pos pl /\ st_angle el = st_angle pl)
  /\ (corr_right k = false -> st_pos er = st_pos pr /\ st_angle er = st_angle pr)
  /\ (corr_left k = true -> st_pos el = st_pos mL /\ same_heading (st_angle el) (st_angle mL) /\ Rabs (st_angle el - st_angle pl) <= PI)
  /\ (corr_right k = true -> st_pos er = st_pos mR /\ same_heading (st_angle er) (st_angle mR) /\ Rabs (st_angle er - st_angle pr) <= PI)
  /\ (reset = true -> st_time el = Rmax (st_time pl) (st_time pr) /\ st_time er = Rmax (st_time pl) (st_time pr))
  /\ (reset = false -> corr_left k = false -> st_time el = st_time pl)
  /\ (reset = false -> corr_right k = false -> st_time er = st_time pr)
  /\ (reset = false -> init < (if corr_left k then st_time mL else init) \/ init < (if corr_right k then st_time mR else init) -> st_time el = st_time pl /\ st_time er = st_time pr)
  /\ (reset = false -> (if corr_left k then st_time mL else init) <= init -> (if corr_right k then st_time mR else init) <= init ->
        (corr_left k = true -> st_time el = st_time mL) /\ (corr_right k = true -> st_time er = st_time mR)).
Proof.
  intros reset pl pr Hl Hr. unfold edited. cbv zeta. destruct (edit_heading pl mL) as (A1 & A2 & _ & A3 & A4). destruct (edit_heading pr mR) as (B1 & B2 & _ & B3 & B4).
  pose proof (Rmax_lub _ _ _ Hl Hr).
  assert (Lt : forall b (x y : step), st_time (if b : bool then x else y) = if b then st_time x else st_time y) by (intros [|]; reflexivity).
  rewrite !Lt, A2, B2. cbn [st_time st_pos st_angle].
  destruct (corr_left k), (corr_right k), reset; cbn [andb orb]; unfold Rgtb;
    repeat match goal with |- context [Rltb ?x ?y] => let E := fresh "E" in destruct (Rltb x y) eqn:E; [apply Rltb_true in E|apply Rltb_false in E] end; cbn [orb];
    repeat match goal with |- _ /\ _ => split end; try discriminate; intros; repeat match goal with |- _ /\ _ => split end; auto; try discriminate; try lra.
Qed.

Lemma edited_times : forall reset pl pr, st_time pl <= init -> st_time pr <= init -> let '(el, er) := edited init reset k pl pr mL mR in
  new_times reset (corr_left k) (corr_right k) init pl pr mL mR (st_time el) (st_time er).
Proof.
  intros reset pl pr Hl Hr. unfold edited, new_times. cbv zeta. destruct (edit_heading pl mL) as (_ & A2 & _). destruct (edit_heading pr mR) as (_ & B2 & _).
  assert (Lt : forall b (x y : step), st_time (if b : bool then x else y) = if b then st_time x else st_time y) by (intros [|]; reflexivity).
  rewrite !Lt, A2, B2. cbn [st_time].
  destruct reset; [auto|]. destruct (corr_left k), (corr_right k); unfold Rgtb;
    repeat match goal with |- context [Rltb ?x ?y] => let E := fresh "E" in destruct (Rltb x y) eqn:E; [apply Rltb_true in E|apply Rltb_false in E] end; cbn [orb];
    (split; intros Q; [try (split; reflexivity)|try (split; reflexivity)]); try (exfalso; intuition (try discriminate; lra)).
Qed.
(** The present steps are the ones kept. *)
Lemma present_unique : forall fp t a b, present fp t a -> present fp t b -> a = b.
Proof.
  intros fp t a b (p1 & q1 & E1 & T1 & F1) (p2 & q2 & E2 & T2 & F2). rewrite E1 in E2. clear E1. revert p2 E2. induction p1 as [|x p1 IH]; intros [|y p2] E2; cbn in E2; injection E2 as E0 E2.
  - auto.
  - exfalso. subst q1. rewrite Forall_forall in F1. specialize (F1 b ltac:(apply in_or_app; right; left; auto)). lra.
  - exfalso. subst q2. rewrite Forall_forall in F2. specialize (F2 a ltac:(apply in_or_app; right; left; auto)). lra.
  - eauto.
Qed.
Lemma keep_present : forall t fp s, present fp t s -> 0 <= st_time s ->
  fp_keepPresent t fp = (MkFP [MkStep (st_pos s) (st_angle s) (st_time s) (fp_name fp)] (fp_name fp), true).
Proof.
  intros t fp s P H0. pose proof P as (pre & post & E & T & F). unfold fp_keepPresent. destruct (find _ _) as [s'|] eqn:Ef.
  - assert (present fp t s') by exact (find_present _ _ _ Ef). assert (s' = s) by (eapply present_unique; eauto). subst s'. unfold fp_addStep. cbn. rewrite rltb_f by lra. reflexivity.
  - exfalso. assert (Rleb (st_time s) t = false); [|apply Rleb_false in H; lra]. apply (find_none _ _ Ef s). rewrite <- in_rev, E. apply in_or_app. right. left. auto.
Qed.

Definition now (p : step) (fp : footprint) : step := MkStep (st_pos p) (st_angle p) (st_time p) (fp_name fp).
Lemma late_or_not : forall cl cr, let late := cl = true /\ init < st_time mL \/ cr = true /\ init < st_time mR in
  late \/ ~ late /\ (cl = true -> st_time mL <= init) /\ (cr = true -> st_time mR <= init).
Proof.
  intros cl cr. cbv zeta. destruct (Rlt_dec init (st_time mL)), (Rlt_dec init (st_time mR)), cl, cr; try (left; solve [left; auto | right; auto]);
    right; (split; [intros [[? ?]|[? ?]]; try discriminate; lra|split; intros; try discriminate; lra]).
Qed.
Lemma new_times_bounds : forall reset pl pr tl tr, new_times reset (corr_left k) (corr_right k) init pl pr mL mR tl tr ->
  (st_time pl <= init -> st_time pr <= init -> tl <= init /\ tr <= init)
  /\ (0 <= st_time pl -> 0 <= st_time pr -> (corr_left k = true -> 0 <= st_time mL) -> (corr_right k = true -> 0 <= st_time mR) -> 0 <= tl /\ 0 <= tr).
Proof.
  intros reset pl pr tl tr. unfold new_times. destruct reset.
  { intros [-> ->]. split; intros; [pose proof (Rmax_lub (st_time pl) (st_time pr) init); auto|]. pose proof (Rmax_l (st_time pl) (st_time pr)). lra. }
  cbv zeta. intros [A B]. destruct (late_or_not (corr_left k) (corr_right k)) as [L|(L & L1 & L2)].
  - destruct (A L) as [-> ->]. auto.
  - destruct (B L) as [-> ->]. split; intros; destruct (corr_left k), (corr_right k); auto.
Qed.
Lemma replan_handed : forall pl pr, present (gn_left g) init pl -> present (gn_right g) init pr -> 0 <= st_time pl -> 0 <= st_time pr ->
  (corr_left k = true -> 0 <= st_time mL) -> (corr_right k = true -> 0 <= st_time mR) ->
  exists l1 r1, handed g init mL mR k (should_reset garbage g) pl pr l1 r1
  /\ forall l2 r2 ok, plan l1 r1 init tend = (l2, r2, ok) -> exists g', replan plan garbage g init tend mL mR k = (g', ok) /\ gn_left g' = l2 /\ gn_right g' = r2.
Proof.
  intros pl pr P1 P2 T1 T2 M1 M2. unfold replan. rewrite (keep_present _ _ _ P1 T1), (keep_present _ _ _ P2 T2). cbn [negb]. unfold fp_getLast. cbn [fp_steps last_opt].
  fold (now pl (gn_left g)) (now pr (gn_right g)). set (reset := should_reset garbage g) in *.
  assert (Hl : st_time (now pl (gn_left g)) <= init) by (destruct P1 as (? & ? & _ & ? & _); cbn; lra). assert (Hr : st_time (now pr (gn_right g)) <= init) by (destruct P2 as (? & ? & _ & ? & _); cbn; lra).
  pose proof (edited_spec reset (now pl (gn_left g)) (now pr (gn_right g)) Hl Hr) as Sp. pose proof (edited_times reset (now pl (gn_left g)) (now pr (gn_right g)) Hl Hr) as Ti.
  destruct (edited init reset k _ _ mL mR) as [el er]. destruct Sp as (L1 & L2 & KL & KR & CL & CR & _ & UL & UR & _ & _). cbn [now st_pos st_angle st_time] in KL, KR, CL, CR, UL, UR.
  change (new_times reset (corr_left k) (corr_right k) init pl pr mL mR (st_time el) (st_time er)) in Ti.
  set (corr := match k with CNone => reset | _ => true end) in *.
  assert (Pos : 0 <= st_time el /\ 0 <= st_time er).
  { apply (new_times_bounds _ _ _ _ _ Ti); auto. }
  assert (Main : forall fp p e (m : step) (co : bool), 0 <= st_time e -> (co = true -> corr = true) ->
    (co = false -> st_pos e = st_pos p /\ st_angle e = st_angle p) -> (co = true -> st_pos e = st_pos m /\ same_heading (st_angle e) (st_angle m) /\ Rabs (st_angle e - st_angle p) <= PI) ->
    (reset = false -> co = false -> st_time e = st_time p) ->
    (co = false -> reset = true -> corr = true) ->
    exists q, (if corr && (co || reset) then replace_by e (MkFP [now p fp] (fp_name fp)) else (MkFP [now p fp] (fp_name fp), true)) = (q, true)
      /\ if co then corrected p m fp (st_time e) q else kept p fp (st_time e) q).
  { intros fp p e m co He Hco K C Ht Hrs. destruct co.
    - rewrite (Hco eq_refl). cbn [andb orb]. unfold replace_by, fp_addStep', fp_addStep. cbn [fp_clear fp_steps fp_name app]. rewrite rltb_f by lra. eexists. split; [reflexivity|].
      destruct (C eq_refl) as (C1 & C2 & C3). exists (st_angle e). rewrite C1. auto.
    - cbn [orb]. destruct (K eq_refl) as [K1 K2]. destruct reset.
      + rewrite (Hrs eq_refl eq_refl). cbn [andb]. unfold replace_by, fp_addStep', fp_addStep. cbn [fp_clear fp_steps fp_name app]. rewrite rltb_f by lra. eexists. split; [reflexivity|]. unfold kept. rewrite K1, K2. reflexivity.
      + rewrite andb_false_r. eexists. split; [reflexivity|]. unfold kept. rewrite (Ht eq_refl eq_refl). reflexivity. }
  destruct (Main (gn_left g) pl el mL (corr_left k)) as (l1 & E1 & Q1); try tauto; try (destruct k; cbn; auto; discriminate).
  destruct (Main (gn_right g) pr er mR (corr_right k)) as (r1 & E2 & Q2); try tauto; try (destruct k; cbn; auto; discriminate).
  exists l1, r1. split; [exists (st_time el), (st_time er); auto|]. intros l2 r2 ok Pl. rewrite E1. cbn [negb]. rewrite E2. cbn [negb]. rewrite Pl. destruct ok; cbn [negb].
  - eexists. split; [reflexivity|]. destruct corr; destruct g; split; reflexivity.
  - eexists. split; [reflexivity|]. destruct g; split; reflexivity.
Qed.
Lemma replan_inv : forall g', replan plan garbage g init tend mL mR k = (g', true) ->
  exists pl pr l1 r1 l2 r2, present (gn_left g) init pl /\ present (gn_right g) init pr
  /\ handed g init mL mR k (should_reset garbage g) pl pr l1 r1 /\ plan l1 r1 init tend = (l2, r2, true)
  /\ gn_left g' = l2 /\ gn_right g' = r2.
Proof.
  intros g' H. pose proof H as H0. unfold replan in H. destruct (fp_keepPresent init (gn_left g)) as [l okl] eqn:El. destruct okl; cbn [negb] in H; [|discriminate].
  destruct (fp_keepPresent init (gn_right g)) as [r okr] eqn:Er. destruct okr; cbn [negb] in H; [|discriminate].
  destruct (keep_inv _ _ _ El) as (pl & P1 & -> & T1). destruct (keep_inv _ _ _ Er) as (pr & P2 & -> & T2). unfold fp_getLast in H. cbn [fp_steps last_opt] in H.
  fold (now pl (gn_left g)) (now pr (gn_right g)) in H. set (reset := should_reset garbage g) in *.
  assert (Hl : st_time (now pl (gn_left g)) <= init) by (destruct P1 as (? & ? & _ & ? & _); cbn; lra). assert (Hr : st_time (now pr (gn_right g)) <= init) by (destruct P2 as (? & ? & _ & ? & _); cbn; lra).
  pose proof (edited_spec reset (now pl (gn_left g)) (now pr (gn_right g)) Hl Hr) as Sp. pose proof (edited_times reset (now pl (gn_left g)) (now pr (gn_right g)) Hl Hr) as Ti.
  destruct (edited init reset k _ _ mL mR) as [el er]. destruct Sp as (L1 & L2 & KL & KR & CL & CR & _ & UL & UR & _ & _). cbn [now st_pos st_angle st_time] in KL, KR, CL, CR, UL, UR.
  change (new_times reset (corr_left k) (corr_right k) init pl pr mL mR (st_time el) (st_time er)) in Ti.
  set (corr := match k with CNone => reset | _ => true end) in *.
  assert (Main : forall fp p e (m : step) (co : bool) q b, (co = true -> corr = true) ->
    (co = false -> st_pos e = st_pos p /\ st_angle e = st_angle p) -> (co = true -> st_pos e = st_pos m /\ same_heading (st_angle e) (st_angle m) /\ Rabs (st_angle e - st_angle p) <= PI) ->
    (reset = false -> co = false -> st_time e = st_time p) ->
    (co = false -> reset = true -> corr = true) ->
    (if corr && (co || reset) then replace_by e (MkFP [now p fp] (fp_name fp)) else (MkFP [now p fp] (fp_name fp), true)) = (q, b) -> b = true ->
      if co then corrected p m fp (st_time e) q else kept p fp (st_time e) q).
  { intros fp p e m co q b Hco K C Ht Hrs E Hb. subst b. unfold replace_by, fp_addStep', fp_addStep in E. cbn [fp_clear fp_steps fp_name app] in E. destruct co.
    - rewrite (Hco eq_refl) in E. cbn [andb orb] in E. destruct (Rltb (st_time e) 0); [discriminate|]. injection E as <-. 
      destruct (C eq_refl) as (C1 & C2 & C3). exists (st_angle e). rewrite C1. auto.
    - cbn [orb] in E. destruct (K eq_refl) as [K1 K2]. destruct reset.
      + rewrite (Hrs eq_refl eq_refl) in E. cbn [andb] in E. destruct (Rltb (st_time e) 0); [discriminate|]. injection E as <-. unfold kept. rewrite K1, K2. reflexivity.
      + rewrite andb_false_r in E. injection E as <-. unfold kept. rewrite (Ht eq_refl eq_refl). reflexivity. }
  destruct (if corr && (corr_left k || reset) then _ else _) as [l1 ok1] eqn:E1. destruct ok1; cbn [negb] in H; [|discriminate].
  destruct (if corr && (corr_right k || reset) then _ else _) as [r1 ok2] eqn:E2. destruct ok2; cbn [negb] in H; [|discriminate].
  destruct (plan l1 r1 init tend) as [[l2 r2] okp] eqn:Ep. destruct okp; cbn [negb] in H; [|discriminate].
  assert (Q1 : if corr_left k then corrected pl mL (gn_left g) (st_time el) l1 else kept pl (gn_left g) (st_time el) l1).
  { apply (Main _ _ _ _ _ _ true); auto; destruct k; cbn; auto; discriminate. }
  assert (Q2 : if corr_right k then corrected pr mR (gn_right g) (st_time er) r1 else kept pr (gn_right g) (st_time er) r1).
  { apply (Main _ _ _ _ _ _ true); auto; destruct k; cbn; auto; discriminate. }
  exists pl, pr, l1, r1, l2, r2. repeat (split; [solve [auto]|]). split; [exists (st_time el), (st_time er); auto|]. split; auto.
  injection H as <-. destruct corr; destruct g; split; reflexivity.
Qed.
End Replan.

(** ** Lengths *)
Lemma mono_sorted : forall l : list nat, (forall i j, (i <= j < length l)%nat -> (nth i l 0 <= nth j l 0)%nat) -> StronglySorted le l.
Proof.
  induction l as [|a l IH]; intros H; constructor.
  - apply IH. intros i j Hij. apply (H (S i) (S j)). cbn. lia.
  - apply Forall_forall. intros x Hx. apply (In_nth _ _ 0%nat) in Hx. destruct Hx as (n & Hn & <-). apply (H 0%nat (S n)). cbn. lia.
Qed.
Lemma last_sorted : forall l a, StronglySorted le (a :: l) -> (a <= last (a :: l) 0)%nat.
Proof.
  intros l a H. inversion H as [|? ? _ F]; subst. destruct l as [|b r]; [cbn; lia|]. assert (In (last (b :: r) 0%nat) (b :: r)).
  { rewrite (app_removelast_last 0%nat) at 2 by discriminate. apply in_or_app. right. left. reflexivity. }
  rewrite Forall_forall in F. change (last (a :: b :: r) 0%nat) with (last (b :: r) 0%nat). auto.
Qed.
Lemma feet_len : forall (swing : nat -> step -> step -> res (list sample)) ph, (forall n a b o, swing n a b = Ok o -> length o = n) ->
  forall ends inst st o, feet_loop swing ph ends inst st = Ok o -> StronglySorted le (inst :: ends) -> length o = (last (inst :: ends) 0 - inst)%nat.
Proof.
  intros swing ph Hs. induction ends as [|e r IH]; intros inst st o H So; cbn [feet_loop] in H; [injection H as <-; cbn; lia|].
  inversion So as [|? ? So2 F]; subst. inversion F as [|? ? Fe Fr]; subst. pose proof (last_sorted r e So2) as Le. change (last (inst :: e :: r) 0%nat) with (last (e :: r) 0%nat).
  assert (Step : forall (out : list sample) st', length out = (e - inst)%nat -> (if Nat.ltb (length ph) (inst + length out) then UB else do rest <- feet_loop swing ph r (inst + length out) st'; Ok (out ++ rest)) = Ok o -> length o = (last (e :: r) 0 - inst)%nat).
  { intros out st' Lo Q. destruct (Nat.ltb _ _); [discriminate|]. apply rbind_ok in Q. destruct Q as (rest & Q1 & Q2). injection Q2 as <-. rewrite Lo in Q1. replace (inst + (e - inst))%nat with e in Q1 by lia.
    rewrite app_length, (IH _ _ _ Q1 So2). lia. }
  destruct (nth_error ph inst) as [p|]; [|discriminate]. destruct p; destruct st as [|s0 st']; try discriminate; try (eapply Step; [|exact H]; rewrite repeat_length; reflexivity).
  unfold sub_size in H. destruct (Nat.leb _ _); cbn [rbind] in H; [|discriminate]. destruct st' as [|s1 st']; [discriminate|]. apply rbind_ok in H. destruct H as (out & H1 & H2). eapply Step; [|exact H2]. eauto.
Qed.
Lemma height_len : forall spline c dT ph ends inst o, height_loop spline c dT ph ends inst = Ok o -> StronglySorted le (inst :: ends) -> length o = (last (inst :: ends) 0 - inst)%nat.
Proof.
  intros spline c dT ph. induction ends as [|e r IH]; intros inst o H So; cbn [height_loop] in H; [injection H as <-; cbn; lia|].
  inversion So as [|? ? So2 F]; subst. inversion F as [|? ? Fe Fr]; subst. pose proof (last_sorted r e So2) as Le. change (last (inst :: e :: r) 0%nat) with (last (e :: r) 0%nat).
  assert (Step : forall (out : list pva), length out = (e - inst)%nat -> (if Nat.ltb (length ph) (inst + length out) then UB else do rest <- height_loop spline c dT ph r (inst + length out); Ok (out ++ rest)) = Ok o -> length o = (last (e :: r) 0 - inst)%nat).
  { intros out Lo Q. destruct (Nat.ltb (length ph) (inst + length out)); [discriminate Q|]. apply rbind_ok in Q. destruct Q as (rest & Q1 & Q2). injection Q2 as <-. rewrite Lo in Q1. replace (inst + (e - inst))%nat with e in Q1 by lia.
    rewrite app_length, (IH _ _ Q1 So2). lia. }
  assert (Bump : (do n <- sub_size e inst; do out <- bump spline c dT n; if Nat.ltb (length ph) (inst + length out) then UB else do rest <- height_loop spline c dT ph r (inst + length out); Ok (out ++ rest)) = Ok o -> length o = (last (e :: r) 0 - inst)%nat).
  { intros Q. unfold sub_size in Q. destruct (Nat.leb inst e); cbn [rbind] in Q; [|discriminate]. apply rbind_ok in Q. destruct Q as (out & Q1 & Q2). eapply Step; [|exact Q2].
    unfold bump in Q1. destruct (Reqb _ _); [discriminate|]. injection Q1 as <-. rewrite map_length, seq_length. reflexivity. }
  destruct (nth_error ph inst) as [p|]; [|discriminate]. destruct p; auto; eapply Step; try exact H; rewrite repeat_length; reflexivity.
Qed.
Lemma weight_len : forall c lph zs ends inst ls rs o, weight_loop c lph zs ends inst ls rs = Ok o -> StronglySorted le (inst :: ends) -> length o = (last (inst :: ends) 0 - inst)%nat.
Proof.
  intros c lph zs. induction ends as [|e r IH]; intros inst ls rs o H So; cbn [weight_loop] in H; [injection H as <-; cbn; lia|].
  inversion So as [|? ? So2 F]; subst. inversion F as [|? ? Fe Fr]; subst. pose proof (last_sorted r e So2) as Le. change (last (inst :: e :: r) 0%nat) with (last (e :: r) 0%nat).
  assert (Step : forall (out : list (R * R)) a b, length out = (e - inst)%nat -> (do rest <- weight_loop c lph zs r (Nat.max inst e) a b; Ok (out ++ rest)) = Ok o -> length o = (last (e :: r) 0 - inst)%nat).
  { intros out a b Lo Q. apply rbind_ok in Q. destruct Q as (rest & Q1 & Q2). injection Q2 as <-. replace (Nat.max inst e) with e in Q1 by lia. rewrite app_length, (IH _ _ _ _ Q1 So2). lia. }
  destruct (nth_error lph inst) as [p|]; [|discriminate].
  destruct p; destruct ls as [|sl ls]; destruct rs as [|sr rs]; try discriminate; destruct (Nat.ltb _ _); try discriminate;
    try (destruct rs; [discriminate|]); try (destruct ls; [discriminate|]);
    try (eapply Step; [|exact H]; rewrite ?repeat_length, ?map_length, ?seq_length; reflexivity).
Qed.
Lemma eval_len : forall dT n i tr o, eval_loop dT n i tr = Ok o -> length o = n.
Proof.
  intros dT. induction n as [|n IH]; intros i tr o H; cbn [eval_loop] in H; [injection H as <-; reflexivity|].
  destruct tr as [|s r]; [discriminate|]. destruct (if Rgtb _ _ then r else s :: r); [discriminate|]. apply rbind_ok in H. destruct H as (y & _ & H). apply rbind_ok in H. destruct H as (rest & H1 & H2). injection H2 as <-. cbn. f_equal. eauto.
Qed.
Lemma world_len : forall spl initT dT s1 oldL oldR ord nL nR wl wr zl zr n li ri acc W, global_loop spl initT dT s1 oldL oldR ord nL nR wl wr zl zr n li ri acc = Ok W -> length W = (n + length acc)%nat.
Proof.
  intros spl initT dT s1 oldL oldR ord nL nR wl wr zl zr. induction n as [|n IH]; intros li ri acc W H; cbn [global_loop] in H; [injection H as <-; reflexivity|].
  apply rbind_ok in H. destruct H as (li' & _ & H). apply rbind_ok in H. destruct H as (ri' & _ & H).
  destruct (nth_error ord li'), (nth_error ord ri'), (nth_error wl n), (nth_error wr n), (nth_error zl n), (nth_error zr n); try discriminate. rewrite (IH _ _ _ _ H). cbn. lia.
Qed.

(** ** Reachable states *)
Record sane (g : gen) : Prop := MkSane {
  sa_set : exists ops, gn_set g = settings_after ops;
  sa_feet : forall c, gn_feet g = Some c -> exists ops, c = feet_history ops;
  sa_cub : forall c, gn_cub g = Some c -> exists ops, c = feet_history ops
}.
Lemma sane_new : sane gen_new.
Proof. split; [exists []; reflexivity|discriminate..]. Qed.
Lemma sane_eq : forall g g', sane g -> gn_set g' = gn_set g -> gn_feet g' = gn_feet g -> gn_cub g' = gn_cub g -> sane g'.
Proof. intros g g' [A B C] E1 E2 E3. split; rewrite ?E1, ?E2, ?E3; auto. Qed.
Lemma sane_call : forall g e, sane g -> sane (gn_call g e).
Proof.
  intros g e S0. pose proof S0 as [(ops & A) B B2]. destruct g as [s l r f z d h a b c p i j k]. cbn in A, B, B2.
  destruct e; try (apply (sane_eq _ _ S0); reflexivity).
  - split; [|exact B|exact B2]. exists (ops ++ [o]). unfold settings_after in *. rewrite fold_left_app, <- A. reflexivity.
  - split; [exists ops; exact A|exact B|]. cbn. destruct j as [j|]; [exact B2|]. cbn. intros c0 Hc. injection Hc as <-. exists []. reflexivity.
  - split; [exists ops; exact A| |exact B2]. cbn. destruct f as [f|]; [exact B|]. cbn. intros c0 Hc. injection Hc as <-. exists []. reflexivity.
  - split; [exists ops; exact A|exact B|]. cbn. destruct j as [j|]; [|discriminate]. cbn. intros c0 Hc. injection Hc as <-. destruct (B2 j eq_refl) as (fo & ->). exists (fo ++ [o]). unfold feet_history. rewrite fold_left_app. reflexivity.
  - split; [exists ops; exact A| |exact B2]. cbn. destruct f as [f|]; [|discriminate]. cbn. intros c0 Hc. injection Hc as <-. destruct (B f eq_refl) as (fo & ->). exists (fo ++ [o]). unfold feet_history. rewrite fold_left_app. reflexivity.
Qed.

Section Whole.
Variable spl : R -> R -> R -> R -> R -> R -> pva.
Variable hspl : R -> R -> R -> R -> pva.
Variable fspl : swing_splines.
Lemma cub_keeps : forall dT l r out h, let h' := fst (run_cubic fspl dT l r out h) in gn_set h' = gn_set h /\ gn_feet h' = gn_feet h /\ gn_left h' = gn_left h /\ gn_right h' = gn_right h
  /\ gn_zmp h' = gn_zmp h /\ gn_dcm h' = gn_dcm h /\ gn_com h' = gn_com h
  /\ gn_ph h' = gn_ph h /\ gn_feetO h' = gn_feetO h /\ gn_zmpO h' = gn_zmpO h /\ gn_dcmO h' = gn_dcmO h /\ gn_comO h' = gn_comO h /\ gn_cub h' = gn_cub h.
Proof. intros dT l r out h. cbv zeta. unfold run_cubic. destruct h as [h1 h2 h3 h4 h5 h6 h7 h8 h9 h10 h11 h12 h13 h14]. cbn [gn_cub]. destruct h13; [|repeat split]. destruct (spline_compute _ _ _ _ _ _ _ _ _); repeat split. Qed.
Lemma feet_keeps : forall dT l r out h, gn_set (fst (run_feet dT l r out h)) = gn_set h /\ gn_feet (fst (run_feet dT l r out h)) = gn_feet h /\ gn_left (fst (run_feet dT l r out h)) = gn_left h /\ gn_right (fst (run_feet dT l r out h)) = gn_right h
  /\ gn_zmp (fst (run_feet dT l r out h)) = gn_zmp h /\ gn_dcm (fst (run_feet dT l r out h)) = gn_dcm h /\ gn_com (fst (run_feet dT l r out h)) = gn_com h
  /\ gn_ph (fst (run_feet dT l r out h)) = gn_ph h /\ gn_zmpO (fst (run_feet dT l r out h)) = gn_zmpO h /\ gn_dcmO (fst (run_feet dT l r out h)) = gn_dcmO h /\ gn_comO (fst (run_feet dT l r out h)) = gn_comO h
  /\ gn_cub (fst (run_feet dT l r out h)) = gn_cub h /\ gn_cubO (fst (run_feet dT l r out h)) = gn_cubO h.
Proof. intros. unfold run_feet. destruct h as [h1 h2 h3 h4 h5 h6 h7 h8 h9 h10 h11 h12]. cbn [gn_feet]. destruct h4; [|repeat split]. destruct (feet_compute _ _ _ _ _ _ _); repeat split. Qed.
Lemma zmp_keeps : forall i dT l r out h, gn_set (fst (run_zmp spl i dT l r out h)) = gn_set h /\ gn_feet (fst (run_zmp spl i dT l r out h)) = gn_feet h /\ gn_left (fst (run_zmp spl i dT l r out h)) = gn_left h /\ gn_right (fst (run_zmp spl i dT l r out h)) = gn_right h
  /\ gn_dcm (fst (run_zmp spl i dT l r out h)) = gn_dcm h /\ gn_com (fst (run_zmp spl i dT l r out h)) = gn_com h
  /\ gn_ph (fst (run_zmp spl i dT l r out h)) = gn_ph h /\ gn_feetO (fst (run_zmp spl i dT l r out h)) = gn_feetO h /\ gn_dcmO (fst (run_zmp spl i dT l r out h)) = gn_dcmO h /\ gn_comO (fst (run_zmp spl i dT l r out h)) = gn_comO h
  /\ gn_cub (fst (run_zmp spl i dT l r out h)) = gn_cub h /\ gn_cubO (fst (run_zmp spl i dT l r out h)) = gn_cubO h.
Proof. intros. unfold run_zmp. destruct h as [h1 h2 h3 h4 h5 h6 h7 h8 h9 h10 h11 h12]. cbn [gn_zmp]. destruct h5; [|repeat split]. destruct (zmp_compute _ _ _ _ _ _ _ _ _) as [[]| |]; repeat split. Qed.
Lemma dcm_keeps : forall i dT l r out h, gn_set (fst (run_dcm i dT l r out h)) = gn_set h /\ gn_feet (fst (run_dcm i dT l r out h)) = gn_feet h /\ gn_left (fst (run_dcm i dT l r out h)) = gn_left h /\ gn_right (fst (run_dcm i dT l r out h)) = gn_right h
  /\ gn_zmp (fst (run_dcm i dT l r out h)) = gn_zmp h /\ gn_com (fst (run_dcm i dT l r out h)) = gn_com h
  /\ gn_ph (fst (run_dcm i dT l r out h)) = gn_ph h /\ gn_feetO (fst (run_dcm i dT l r out h)) = gn_feetO h /\ gn_zmpO (fst (run_dcm i dT l r out h)) = gn_zmpO h /\ gn_comO (fst (run_dcm i dT l r out h)) = gn_comO h
  /\ gn_cub (fst (run_dcm i dT l r out h)) = gn_cub h /\ gn_cubO (fst (run_dcm i dT l r out h)) = gn_cubO h.
Proof. intros. unfold run_dcm. destruct h as [h1 h2 h3 h4 h5 h6 h7 h8 h9 h10 h11 h12]. cbn [gn_dcm]. destruct h6; [|repeat split]. destruct (dcm_compute _ _ _ _ _ _ _ _) as [[]| |]; repeat split. Qed.
Lemma com_keeps : forall dT out h, gn_set (fst (run_com hspl dT out h)) = gn_set h /\ gn_feet (fst (run_com hspl dT out h)) = gn_feet h /\ gn_left (fst (run_com hspl dT out h)) = gn_left h /\ gn_right (fst (run_com hspl dT out h)) = gn_right h
  /\ gn_zmp (fst (run_com hspl dT out h)) = gn_zmp h /\ gn_dcm (fst (run_com hspl dT out h)) = gn_dcm h /\ gn_com (fst (run_com hspl dT out h)) = gn_com h
  /\ gn_ph (fst (run_com hspl dT out h)) = gn_ph h /\ gn_feetO (fst (run_com hspl dT out h)) = gn_feetO h /\ gn_zmpO (fst (run_com hspl dT out h)) = gn_zmpO h /\ gn_dcmO (fst (run_com hspl dT out h)) = gn_dcmO h
  /\ gn_cub (fst (run_com hspl dT out h)) = gn_cub h /\ gn_cubO (fst (run_com hspl dT out h)) = gn_cubO h.
Proof. intros. unfold run_com. destruct h as [h1 h2 h3 h4 h5 h6 h7 h8 h9 h10 h11 h12]. cbn [gn_com]. destruct h7; [|repeat split]. destruct (height_compute _ _ _ _ _); repeat split. Qed.

Lemma from_keeps : forall g l r i d s, let g' := fst (generate_from spl hspl fspl g l r i d s) in gn_set g' = gn_set g /\ gn_feet g' = gn_feet g /\ gn_left g' = l /\ gn_right g' = r /\ gn_com g' = gn_com g /\ gn_cub g' = gn_cub g.
Proof.
  intros g l r i d s. cbv zeta. unfold generate_from. destruct (negb _); [destruct g; repeat split|]. destruct (generate_phases _ _ _ _ _ _) as [out| |]; [|destruct g; repeat split..].
  set (hz := with_ph _ _).
  assert (E0 : gn_set hz = gn_set g /\ gn_feet hz = gn_feet g /\ gn_left hz = l /\ gn_right hz = r /\ gn_com hz = gn_com g /\ gn_cub hz = gn_cub g) by (unfold hz; destruct g; repeat split).
  pose proof (cub_keeps d l r out hz) as U. destruct (run_cubic fspl d l r out hz) as [h0 o0]. cbn [fst] in U. destruct o0; cbn [andthen fst snd]; try (intuition congruence).
  pose proof (feet_keeps d l r out h0) as F. destruct (run_feet d l r out h0) as [h1 o1]. cbn [fst] in F.
  destruct o1; cbn [andthen fst snd]; try (cbn [fst snd andthen]; intuition congruence).
  pose proof (zmp_keeps i d l r out h1) as Z. destruct (run_zmp spl i d l r out h1) as [h2 o2]. cbn [fst] in Z. destruct o2; cbn [andthen fst snd]; try (intuition congruence).
  pose proof (dcm_keeps i d l r out h2) as D. destruct (run_dcm i d l r out h2) as [h3 o3]. cbn [fst] in D. destruct o3; cbn [andthen fst snd]; try (intuition congruence).
  pose proof (com_keeps d out h3) as C. intuition congruence.
Qed.
Lemma replan_keeps : forall plan gb g i t mL mR k, let g' := fst (replan plan gb g i t mL mR k) in gn_set g' = gn_set g /\ gn_feet g' = gn_feet g /\ gn_cub g' = gn_cub g.
Proof.
  intros plan gb g i t mL mR k. cbv zeta. unfold replan.
  destruct (fp_keepPresent i (gn_left g)) as [l [|]]; cbn [negb fst]; [|destruct g; auto].
  destruct (fp_keepPresent i (gn_right g)) as [r [|]]; cbn [negb fst]; [|destruct g; auto].
  destruct (fp_getLast l), (fp_getLast r); try (destruct g; auto; fail).
  destruct (edited _ _ _ _ _ _ _) as [el er].
  match goal with |- context [if ?b then replace_by el l else ?y] => destruct (if b then replace_by el l else y) as [l1 [|]] end; cbn [negb fst]; [|destruct g; auto].
  match goal with |- context [if ?b then replace_by er r else ?y] => destruct (if b then replace_by er r else y) as [r1 [|]] end; cbn [negb fst]; [|destruct g; auto].
  destruct (plan l1 r1 i t) as [[l2 r2] [|]]; cbn [negb fst]; [|destruct g; auto].
  match goal with |- context [if ?b then with_zmp _ _ else _] => destruct b end; destruct g; auto.
Qed.
Lemma sane_perform : forall g c, sane g -> sane (fst (perform spl hspl fspl g c)).
Proof.
  intros g c S0. destruct c; cbn [perform].
  - apply sane_call. auto.
  - destruct (from_keeps g left right init dT srt) as (A & B & _ & _ & _ & C). eapply sane_eq; eauto.
  - unfold generate. destruct (plan _ _ _ _) as [[l r] [|]]; cbn [negb fst]; [|apply (sane_eq g); auto; destruct g; auto].
    destruct (from_keeps (with_fps l r g) l r init dT srt) as (A & B & _ & _ & _ & C). eapply sane_eq; eauto; [rewrite A|rewrite B|rewrite C]; destruct g; auto.
  - unfold regenerate. pose proof (replan_keeps plan garbage g init tend mL mR k) as K. destruct (replan _ _ _ _ _ _ _ _) as [g1 [|]]; cbn [negb fst] in *; destruct K as (K1 & K2 & K3).
    + destruct (from_keeps g1 (gn_left g1) (gn_right g1) init dT srt) as (A & B & _ & _ & _ & C). eapply sane_eq; eauto; congruence.
    + eapply sane_eq; eauto.
Qed.
Lemma sane_session : forall cs g g' os, sane g -> session spl hspl fspl g cs = Some (g', os) -> sane g'.
Proof.
  induction cs as [|c r IH]; intros g g' os S0 H; cbn [session] in H; [injection H as <- _; auto|].
  pose proof (sane_perform g c S0) as S1. destruct (perform spl hspl fspl g c) as [g1 o]. cbn [fst] in S1. destruct o; try discriminate; destruct (session spl hspl fspl g1 r) as [[h os']|] eqn:E; try discriminate; injection H as <- _; eauto.
Qed.

(** A generation that ends well. *)
Lemma from_done : forall g l r i d s g', generate_from spl hspl fspl g l r i d s = (g', Done) ->
  exists out, generate_phases (gn_set g) l r i d s = Ok out /\ gn_ph g' = Have out /\ gn_left g' = l /\ gn_right g' = r
  /\ (forall c, gn_feet g = Some c -> exists o, feet_compute c d (fp_steps l) (fp_steps r) (ph_left (go_ph out)) (ph_right (go_ph out)) (ph_shift (go_ph out)) = Ok o /\ gn_feetO g' = Have o)
  /\ (forall c, gn_zmp g = Some c -> exists o c', zmp_compute spl c (ztimes_of (gn_set g)) i d l r (map t_step (go_ord out)) (go_ph out) = Ok (o, c') /\ gn_zmpO g' = Have o /\ gn_zmp g' = Some c')
  /\ (forall c, gn_dcm g = Some c -> exists o c', dcm_compute (dm_cfg c) (ztimes_of (gn_set g)) i d l r (map t_step (go_ord out)) (go_ph out) = Ok (o, c') /\ gn_dcmO g' = Have o /\ gn_dcm g' = Some (MkDM c' (dm_start c l r)))
  /\ (forall c, gn_com g = Some c -> exists o, height_compute hspl c d (ph_left (go_ph out)) (ph_shift (go_ph out)) = Ok o /\ gn_comO g' = Have o)
  /\ gn_set g' = gn_set g /\ gn_feet g' = gn_feet g /\ gn_com g' = gn_com g /\ (gn_zmp g = None -> gn_zmp g' = None) /\ (gn_dcm g = None -> gn_dcm g' = None)
  /\ gn_cub g' = gn_cub g
  /\ (forall c, gn_cub g = Some c -> exists o, spline_compute (sw2 fspl) (sw3 fspl) c d (fp_steps l) (fp_steps r) (ph_left (go_ph out)) (ph_right (go_ph out)) (ph_shift (go_ph out)) = Ok o /\ gn_cubO g' = Have o).
Proof.
  intros g l r i d s g' H. unfold generate_from in H. destruct (negb _); [discriminate|].
  assert (Es : gn_set (with_fps l r g) = gn_set g) by (destruct g; auto). rewrite Es in H. destruct (generate_phases (gn_set g) l r i d s) as [out| |] eqn:Eg; try discriminate.
  exists out. split; auto. set (hz := with_ph _ _) in H.
  assert (E0 : gn_set hz = gn_set g /\ gn_feet hz = gn_feet g /\ gn_left hz = l /\ gn_right hz = r /\ gn_com hz = gn_com g /\ gn_zmp hz = gn_zmp g /\ gn_dcm hz = gn_dcm g /\ gn_ph hz = Have out /\ gn_cub hz = gn_cub g) by (unfold hz; destruct g; repeat split).
  clearbody hz. destruct E0 as (A1 & A2 & A3 & A4 & A5 & A6 & A7 & A8 & A9).
  pose proof (cub_keeps d l r out hz) as U. destruct (run_cubic fspl d l r out hz) as [h0 o0] eqn:E0. cbn [fst] in U. destruct o0; cbn [andthen fst snd] in H; try discriminate.
  destruct U as (U1 & U2 & U3 & U4 & U5 & U6 & U7 & U8 & U9 & U10 & U11 & U12 & U13).
  assert (Hcub : forall c, gn_cub g = Some c -> exists o, spline_compute (sw2 fspl) (sw3 fspl) c d (fp_steps l) (fp_steps r) (ph_left (go_ph out)) (ph_right (go_ph out)) (ph_shift (go_ph out)) = Ok o /\ gn_cubO h0 = Have o).
  { intros c Hc. unfold run_cubic in E0. rewrite A9, Hc in E0. destruct (spline_compute _ _ _ _ _ _ _ _ _) as [o| |] eqn:Q; try discriminate. injection E0 as <-. exists o. split; auto. destruct hz; reflexivity. }
  clear E0. rewrite <- U1 in A1. rewrite <- U2 in A2. rewrite <- U3 in A3. rewrite <- U4 in A4. rewrite <- U7 in A5. rewrite <- U5 in A6. rewrite <- U6 in A7. rewrite <- U8 in A8. rewrite <- U13 in A9. clear U1 U2 U3 U4 U5 U6 U7 U8 U9 U10 U11 U12 U13.
  pose proof (feet_keeps d l r out h0) as F. destruct (run_feet d l r out h0) as [h1 o1] eqn:E1. cbn [fst] in F. destruct o1; cbn [andthen fst snd] in H; try discriminate.
  pose proof (zmp_keeps i d l r out h1) as Z. destruct (run_zmp spl i d l r out h1) as [h2 o2] eqn:E2. cbn [fst] in Z. destruct o2; cbn [andthen fst snd] in H; try discriminate.
  pose proof (dcm_keeps i d l r out h2) as D. destruct (run_dcm i d l r out h2) as [h3 o3] eqn:E3. cbn [fst] in D. destruct o3; cbn [andthen fst snd] in H; try discriminate.
  pose proof (com_keeps d out h3) as C. destruct (run_com hspl d out h3) as [h4 o4] eqn:E4. cbn [fst] in C. injection H as -> ->.
  destruct F as (F1 & F2 & F3 & F4 & F5 & F6 & F7 & F8 & F9 & F10 & F11 & F12 & F13). destruct Z as (Z1 & Z2 & Z3 & Z4 & Z5 & Z6 & Z7 & Z8 & Z9 & Z10 & Z11 & Z12). destruct D as (D1 & D2 & D3 & D4 & D5 & D6 & D7 & D8 & D9 & D10 & D11 & D12).
  destruct C as (C1 & C2 & C3 & C4 & C5 & C6 & C7 & C8 & C9 & C10 & C11 & C12 & C13).
  split; [congruence|]. split; [congruence|]. split; [congruence|]. split.
  { intros c Hc. unfold run_feet in E1. rewrite A2, Hc in E1. destruct (feet_compute _ _ _ _ _ _ _) as [o| |] eqn:Q; try discriminate. injection E1 as <-. exists o. split; auto. rewrite C9, D8, Z8. destruct h0; reflexivity. }
  split.
  { intros c Hc. unfold run_zmp in E2. rewrite F5, A6, Hc in E2. rewrite F1, A1 in E2. destruct (zmp_compute _ _ _ _ _ _ _ _ _) as [[o c']| |] eqn:Q; try discriminate. injection E2 as <-. exists o, c'. split; auto. rewrite C10, D9, C5, D5. destruct h1; auto. }
  split.
  { intros c Hc. unfold run_dcm in E3. rewrite Z5, F6, A7, Hc in E3. rewrite Z1, F1, A1 in E3. destruct (dcm_compute _ _ _ _ _ _ _ _) as [[o c']| |] eqn:Q; try discriminate. injection E3 as <-. exists o, c'. split; auto. rewrite C11, C6. destruct h2; auto. }
  split.
  { intros c Hc. unfold run_com in E4. rewrite D6, Z6, F7, A5, Hc in E4. destruct (height_compute _ _ _ _ _) as [o| |] eqn:Q; try discriminate. injection E4 as <-. exists o. split; auto. destruct h3; auto. }
  split; [congruence|]. split; [congruence|]. split; [congruence|]. split; [|split; [|split; [congruence|]]].
  - intros Hn. rewrite C5, D5. unfold run_zmp in E2. rewrite F5, A6, Hn in E2. injection E2 as <-. congruence.
  - intros Hn. rewrite C6. unfold run_dcm in E3. rewrite Z5, F6, A7, Hn in E3. injection E3 as <-. congruence.
  - intros c Hc. destruct (Hcub c Hc) as (o & Q & Qo). exists o. split; auto. congruence.
Qed.

(** A generation that returns false. *)
Lemma from_refused : forall g l r i d s g', generate_from spl hspl fspl g l r i d s = (g', Refused) ->
  (gn_com g = None -> option_map dm_cfg (gn_dcm g') = option_map dm_cfg (gn_dcm g)) /\ (gn_com g = None -> gn_dcm g = None -> gn_zmp g' = gn_zmp g).
Proof.
  intros g l r i d s g' H. unfold generate_from in H. destruct (negb _); [injection H as <-; destruct g; auto|].
  assert (Es : gn_set (with_fps l r g) = gn_set g) by (destruct g; auto). rewrite Es in H. destruct (generate_phases (gn_set g) l r i d s) as [out| |] eqn:Eg; [|injection H as <-; destruct g; auto|discriminate].
  set (hz := with_ph _ _) in H. assert (E0 : gn_com hz = gn_com g /\ gn_zmp hz = gn_zmp g /\ gn_dcm hz = gn_dcm g) by (unfold hz; destruct g; repeat split). clearbody hz. destruct E0 as (A5 & A6 & A7).
  pose proof (cub_keeps d l r out hz) as U. destruct (run_cubic fspl d l r out hz) as [h0 o0]. cbn [fst] in U. destruct U as (_ & _ & _ & _ & U5 & U6 & U7 & _). rewrite <- U7 in A5. rewrite <- U5 in A6. rewrite <- U6 in A7.
  destruct o0; cbn [andthen fst snd] in H; [|injection H as <-; split; congruence|discriminate].
  pose proof (feet_keeps d l r out h0) as F. destruct (run_feet d l r out h0) as [h1 o1] eqn:E1. cbn [fst] in F. destruct F as (F1 & F2 & F3 & F4 & F5 & F6 & F7 & F8 & F9 & F10 & F11).
  destruct o1; cbn [andthen fst snd] in H; [|injection H as <-; split; congruence|discriminate].
  pose proof (zmp_keeps i d l r out h1) as Z. destruct (run_zmp spl i d l r out h1) as [h2 o2] eqn:E2. cbn [fst] in Z. destruct Z as (Z1 & Z2 & Z3 & Z4 & Z5 & Z6 & Z7 & Z8 & Z9 & Z10).
  destruct o2; cbn [andthen fst snd] in H; [| |discriminate].
  2:{ injection H as <-. split; [congruence|]. intros _ _. unfold run_zmp in E2. destruct (gn_zmp h1) eqn:Eh; [|discriminate]. destruct (zmp_compute _ _ _ _ _ _ _ _ _) as [[]| |]; try discriminate. injection E2 as <-. transitivity (gn_zmp h1); [destruct h1; reflexivity|congruence]. }
  pose proof (dcm_keeps i d l r out h2) as D. destruct (run_dcm i d l r out h2) as [h3 o3] eqn:E3. cbn [fst] in D. destruct D as (D1 & D2 & D3 & D4 & D5 & D6 & D7 & D8 & D9 & D10).
  unfold run_dcm in E3. destruct o3; cbn [andthen fst snd] in H; [| |discriminate].
  2:{ injection H as <-. destruct (gn_dcm h2) eqn:Eh; [|discriminate]. destruct (dcm_compute _ _ _ _ _ _ _ _) as [[]| |]; try discriminate. injection E3 as <-. split; [|intros; exfalso; congruence]. intros _. replace (gn_dcm g) with (gn_dcm h2) by congruence. rewrite Eh. destruct h2; reflexivity. }
  unfold run_com in H. destruct (gn_com h3) eqn:Ec; [|discriminate]. split; intros; exfalso; congruence.
Qed.
Lemma replan_keeps2 : forall plan gb g i t mL mR k, let g' := fst (replan plan gb g i t mL mR k) in
  gn_dcm g' = gn_dcm g /\ gn_com g' = gn_com g /\ (gn_zmp g = None -> gn_zmp g' = None)
  /\ forall c, gn_zmp g = Some c -> exists c', gn_zmp g' = Some c' /\ z_init c' = z_init c.
Proof.
  intros plan gb g i t mL mR k. cbv zeta. unfold replan.
  assert (Same : forall l r, gn_dcm (with_fps l r g) = gn_dcm g /\ gn_com (with_fps l r g) = gn_com g /\ (gn_zmp g = None -> gn_zmp (with_fps l r g) = None)
    /\ forall c, gn_zmp g = Some c -> exists c', gn_zmp (with_fps l r g) = Some c' /\ z_init c' = z_init c).
  { intros l r. replace (gn_zmp (with_fps l r g)) with (gn_zmp g) by (destruct g; auto). repeat split; try (destruct g; reflexivity); auto. intros c ->. eauto. }
  destruct (fp_keepPresent i (gn_left g)) as [l [|]]; cbn [negb fst]; auto.
  destruct (fp_keepPresent i (gn_right g)) as [r [|]]; cbn [negb fst]; auto.
  destruct (fp_getLast l) as [pl|], (fp_getLast r) as [pr|]; cbn [fst]; auto.
  destruct (edited _ _ _ _ _ _ _) as [el er].
  match goal with |- context [if ?b then replace_by el l else ?y] => destruct (if b then replace_by el l else y) as [l1 [|]] end; cbn [negb fst]; auto.
  match goal with |- context [if ?b then replace_by er r else ?y] => destruct (if b then replace_by er r else y) as [r1 [|]] end; cbn [negb fst]; auto.
  destruct (plan l1 r1 i t) as [[l2 r2] [|]]; cbn [negb fst]; auto.
  match goal with |- context [if ?b then with_zmp _ _ else _] => destruct b end; auto.
  clear Same. destruct g as [h1 h2 h3 h4 h5 h6 h7 h8 h9 h10 h11 h12]. cbn. repeat split; auto; [intros ->; reflexivity|]. intros c ->. cbn. eexists. split; reflexivity.
Qed.

Lemma from_lengths : forall g l r i d s g', sane g -> generate_from spl hspl fspl g l r i d s = (g', Done) -> exists n, all_of_length n g'.
Proof.
  intros g l r i d s g' S0 H. destruct (from_done _ _ _ _ _ _ _ H) as (out & Gen & Ho & _ & _ & Hf & Hz & Hd & Hc & K1 & K2 & K3 & K4 & K5 & K6 & Hu). destruct S0 as [(ops & Es) Sf Su].
  rewrite Es in Gen. pose proof (good_history ops) as G. destruct (generate_inv _ _ _ _ _ _ _ G Gen) as (l0 & r0 & _ & _ & Hd0 & _ & _ & _ & _ & _ & P & Rest). pose proof P as P0. destruct P0.
  exists (bnd (go_ph out) (2 * length (planned (go_ord out)) + 1)). set (n := bnd _ _).
  assert (So : StronglySorted le (ph_shift (go_ph out))) by (apply mono_sorted; intros a b Hab; apply p_mono; lia).
  assert (Sh : exists t, ph_shift (go_ph out) = 0%nat :: t).
  { unfold bnd in p_hd. destruct (ph_shift (go_ph out)) as [|x t]; [cbn in p_len; lia|]. cbn in p_hd. subst x. eauto. }
  destruct Sh as (t & Sh).
  assert (La : last (0%nat :: t) 0%nat = n).
  { rewrite <- Sh. unfold n, bnd. destruct (ph_shift (go_ph out)) as [|x u] eqn:E; [discriminate|]. rewrite (app_removelast_last 0%nat) at 2 by discriminate.
    rewrite app_nth2; [|rewrite removelast_firstn_len, firstn_length; cbn [length] in *; lia]. rewrite removelast_firstn_len, firstn_length. cbn [length] in *. replace (_ - _)%nat with 0%nat by lia. reflexivity. }
  rewrite Sh in So. pose proof (p_size true) as Ll. pose proof (p_size false) as Lr. cbn [foot_phases] in Ll, Lr. fold n in Ll, Lr.
  split; [|split; [|split; [|split; [|split]]]].
  - exists out. split; auto. split; auto. split; auto.
    unfold generate_phases in Gen. destruct (Nat.ltb _ _); [discriminate|]. destruct (Nat.ltb _ _); [discriminate|]. destruct (String.eqb _ _); [discriminate|]. destruct (Rleb _ _); [discriminate|].
    destruct (fp_steps l); [discriminate|]. destruct (fp_steps r); [discriminate|]. destruct (Rltb _ _); [discriminate|]. apply rbind_ok in Gen. destruct Gen as (od & _ & Gen). apply rbind_ok in Gen. destruct Gen as (ph & _ & Gen). injection Gen as <-.
    cbn [go_ph go_lContact go_rContact go_leftFixed] in *. rewrite !map_length. auto.
  - intros Hn. destruct (gn_feet g) as [c|] eqn:Ef; [|congruence]. destruct (Hf c eq_refl) as ([a b] & Q & Qo). exists a, b. split; auto. destruct (Sf c eq_refl) as (fo & ->).
    unfold feet_compute in Q. apply rbind_ok in Q. destruct Q as (a' & Q1 & Q). apply rbind_ok in Q. destruct Q as (b' & Q2 & Q). injection Q as -> ->.
    assert (Sw : forall n a b o, swing_minjerk (feet_history fo) d n a b = Ok o -> length o = n) by (intros n1 s0 s1 o Q; destruct (swing_ok (feet_history fo) d n1 s0 s1 (feet_history_ok fo) Hd0) as (o' & E & L & _); congruence).
    unfold interpolate_foot in Q1, Q2. destruct (Rltb _ 0); [discriminate|]. rewrite Sh in Q1, Q2. cbn [tl] in Q1, Q2. rewrite (feet_len _ _ Sw _ _ _ _ Q1 So), (feet_len _ _ Sw _ _ _ _ Q2 So), La. lia.
  - intros Hn. destruct (gn_cub g) as [c|] eqn:Ef; [|congruence]. destruct (Hu c eq_refl) as ([a b] & Q & Qo). exists a, b. split; auto.
    unfold spline_compute in Q. apply rbind_ok in Q. destruct Q as (a' & Q1 & Q). apply rbind_ok in Q. destruct Q as (b' & Q2 & Q). injection Q as -> ->.
    assert (Sw : forall n a b o, swing_spline (sw2 fspl) (sw3 fspl) c d n a b = Ok o -> length o = n) by (intros n1 s0 s1 o Q; unfold swing_spline in Q; destruct (_ || _); [discriminate|]; injection Q as <-; rewrite map_length, seq_length; reflexivity).
    unfold spline_foot in Q1, Q2. destruct (Rltb _ 0); [discriminate|]. rewrite Sh in Q1, Q2. cbn [tl] in Q1, Q2. rewrite (feet_len _ _ Sw _ _ _ _ Q1 So), (feet_len _ _ Sw _ _ _ _ Q2 So), La. lia.
  - intros Hn. destruct (gn_zmp g) as [c|] eqn:Ez; [|exfalso; apply Hn; auto]. destruct (Hz c eq_refl) as (o & c' & Q & Qo & _). exists o. split; auto. rewrite Es in Q.
    destruct (run_values spl _ G _ _ _ _ _ _ Gen _ _ _ Q) as (_ & L1 & L2 & L3 & _). destruct (zmp_parts _ _ _ _ _ _ _ _ _ _ _ Q) as (oldL & oldR & s1 & _ & _ & Ew & _ & _ & _ & _ & Hw & _).
    rewrite Ew, map_length, L1, L2, L3, Ll. repeat (split; [auto|]). unfold global_zmp in Hw. do 3 (apply rbind_ok in Hw; destruct Hw as (? & _ & Hw)). rewrite (world_len _ _ _ _ _ _ _ _ _ _ _ _ _ _ _ _ _ _ Hw), L2, Ll. cbn. lia.
  - intros Hn. destruct (gn_dcm g) as [c|] eqn:Ez; [|exfalso; apply Hn; auto]. destruct (Hd c eq_refl) as (o & c' & Q & Qo & _). exists o. split; auto.
    unfold dcm_compute in Q. apply rbind_ok in Q. destruct Q as (ini & _ & Q). destruct (fp_steps l); [discriminate|]. destruct (fp_steps r); [discriminate|]. destruct (Rleb _ _); [discriminate|]. destruct (Rltb _ _); [discriminate|]. destruct (negb (pause_ok _)); [discriminate Q|].
    apply rbind_ok in Q. destruct Q as (tr & _ & Q). apply rbind_ok in Q. destruct Q as (ys & Q1 & Q). apply rbind_ok in Q. destruct Q as (ws & Q2 & Q). injection Q as <- _. cbn [do_samples do_weights].
    rewrite Sh in Q1, Q2. cbn [tl] in Q2. unfold evaluate in Q1. apply rbind_ok in Q1. destruct Q1 as (m & E & Q1). unfold sub_size in E. cbn [Nat.leb] in E. injection E as <-.
    rewrite (eval_len _ _ _ _ _ Q1), (weight_len _ _ _ _ _ _ _ _ Q2 So), La. change (match t with [] => 0%nat | _ :: _ => last t 0%nat end) with (last (0%nat :: t) 0%nat). rewrite La. lia.
  - intros Hn. destruct (gn_com g) as [c|] eqn:Ez; [|congruence]. destruct (Hc c eq_refl) as (o & Q & Qo). exists o. split; auto. unfold height_compute in Q. destruct (Rltb _ _); [discriminate|]. rewrite Sh in Q. cbn [tl] in Q.
    rewrite (height_len _ _ _ _ _ _ _ Q So), La. lia.
Qed.
End Whole.

(** ** First samples *)
Lemma zmp_first : forall spl g left right init dT srt out c zo c', good_settings g -> spline_contract spl ->
  generate_phases g left right init dT srt = Ok out -> zmp_compute spl c (ztimes_of g) init dT left right (map t_step (go_ord out)) (go_ph out) = Ok (zo, c') ->
  (g_pause g = true -> dT <= 2 * g_endSwitch g) ->
  exists w, nth_error (zo_wl zo) 0 = Some w /\ p_p w = p_p (init_weight c) /\ p_v w = p_v (init_weight c).
Proof.
  intros spl g left right init dT srt out c zo c' G Hs Gen Hz He. pose proof (run_no_empty spl g G left right init dT srt out Gen c zo c' Hz) as Ne.
  destruct (generate_inv _ _ _ _ _ _ _ G Gen) as (l0 & r0 & _ & _ & Hd & _ & _ & _ & _ & _ & P & _). pose proof P as P0. destruct P0.
  assert (St : (0 < bnd (go_ph out) 1)%nat).
  { apply (Ne 0%nat). - rewrite (nth_error_nth' _ 0%nat) by lia. f_equal. exact p_hd. - apply nth_error_nth'. lia. }
  assert (L0 : (0 < length (ph_left (go_ph out)))%nat).
  { rewrite (p_size true : length (ph_left _) = _). assert (bnd (go_ph out) 1 <= bnd (go_ph out) (2 * length (planned (go_ord out)) + 1))%nat by (apply p_mono; lia). lia. }
  destruct (run_values spl g G left right init dT srt out Gen c zo c' Hz) as (_ & _ & _ & _ & K). destruct (K 0%nat L0) as (j & p & q & Hj & Hb & _ & _ & _ & Hp & _ & Ew & _). clear K.
  assert (j = 0%nat). { destruct j; auto. assert (bnd (go_ph out) 1 <= bnd (go_ph out) (S j))%nat by (apply p_mono; lia). lia. } subst j.
  eexists. split; [exact Ew|]. rewrite p_hd in *. rewrite Nat.sub_0_r, Nat.sub_diag. cbn [Nat.eqb]. unfold wval.
  assert (Sp : forall T x1, 0 < T -> p_p (spv spl dT T (source (init_weight c) true p) x1 0) = p_p (init_weight c) /\ p_v (spv spl dT T (source (init_weight c) true p) x1 0) = p_v (init_weight c)).
  { intros T x1 HT. unfold spv, source. cbn [INR]. rewrite Rmult_0_l. destruct (Hs T (p_p (init_weight c)) (p_v (init_weight c)) (p_a (init_weight c)) x1 HT) as (? & ? & ? & ? & _ & A & B & _). auto. }
  assert (Main : forall T, 0 < T -> (if pauses (ztimes_of g) dT (bnd (go_ph out) 1) then (1 <= n1 (ztimes_of g) dT)%nat /\ 0 < z_end (ztimes_of g) else True)).
  { intros T HT. destruct (pauses _ _ _) eqn:Ep; auto. split; [|apply (Zend g G)].
    unfold pauses in Ep. cbn [z_pause ztimes_of] in Ep. destruct (g_pause g); [|discriminate]. specialize (He eq_refl). unfold n1. cbn [z_end ztimes_of]. apply nround_pos. apply (Rmult_le_reg_r dT); auto. replace (g_endSwitch g / dT * dT) with (g_endSwitch g) by (field; lra). lra. }
  specialize (Main 1 ltac:(lra)). assert (Nn : 0 < INR (bnd (go_ph out) 1) * dT) by (apply Rmult_lt_0_compat; auto; apply lt_0_INR; lia).
  destruct (Hp eq_refl) as [-> | ->]; destruct (pauses _ _ _); try (apply Sp; auto); destruct Main as [M1 M2]; rewrite (proj2 (Nat.ltb_lt 0 _)) by lia; apply Sp; auto.
Qed.
