(** Phases: binary64 without overflow is the rounded model. *)
From Coq Require Import String Reals ZArith List Bool Lia Lra.
From Flocq Require Import Core IEEE754.BinarySingleNaN.
From Verif Require Import Prelude Rounding FootPrint GenPhases GenProofs2 RoundedGen RoundedGenSpec RoundedGenProofs2 RoundedGenProofs3
  Doubles DoublesGen DoublesSpec DoublesProofs DoublesProofs2 DoublesProofs3 DoublesProofs4.
Import ListNotations.
Open Scope R_scope.
Opaque fadd fsub fmul fdiv fmake f1 fm1 fpi.

(** [x] is a finite double of value [r]. *)
Definition rep (x : f64) (r : R) : Prop := fin x = true /\ f2r x = r.
Lemma rep_add : forall x y a b, rep x a -> rep y b -> Rabs (a + b) <= top -> rep (a_add ieee x y) (a_add rn64 a b).
Proof. intros x y a b (Fx & <-) (Fy & <-) H. apply fadd_ok; auto. Qed.
Lemma rep_sub : forall x y a b, rep x a -> rep y b -> Rabs (a - b) <= top -> rep (a_sub ieee x y) (a_sub rn64 a b).
Proof. intros x y a b (Fx & <-) (Fy & <-) H. apply fsub_ok; auto. Qed.
Lemma rep_mul : forall x y a b, rep x a -> rep y b -> Rabs (a * b) <= top -> rep (a_mul ieee x y) (a_mul rn64 a b).
Proof. intros x y a b (Fx & <-) (Fy & <-) H. apply fmul_ok; auto. Qed.
Lemma rep_div : forall x y a b, rep x a -> rep y b -> b <> 0 -> Rabs (a / b) <= top -> rep (a_div ieee x y) (a_div rn64 a b).
Proof. intros x y a b (Fx & <-) (Fy & <-) N H. apply fdiv_ok; auto. Qed.
Lemma rep_1 : rep (a_q ieee 1 1) (a_q rn64 1 1).
Proof. apply q_ok; lia. Qed.
Lemma rep_2 : rep (a_q ieee 2 1) (a_q rn64 2 1).
Proof. apply q_ok; lia. Qed.
Lemma rep_le : forall x r, rep x r -> r <= top.
Proof. intros x r (_ & <-). apply le_top. Qed.
Lemma rep_lt : forall x y a b, rep x a -> rep y b -> a_lt ieee x y = a_lt rn64 a b.
Proof. intros x y a b (Fx & <-) (Fy & <-). apply blt_ok; auto. Qed.
Lemma rep_eq : forall x y a b, rep x a -> rep y b -> a_eq ieee x y = a_eq rn64 a b.
Proof. intros x y a b (Fx & <-) (Fy & <-). apply beq_ok; auto. Qed.
Lemma rep_below : forall x a, rep x a -> below0 ieee x = below0 rn64 a.
Proof. intros x a H. unfold below0. rewrite c0_zero, c0_rn. apply (rep_lt x fzero a 0); auto. apply fzero_ok. Qed.
Lemma rep_atmost : forall x a, rep x a -> atmost0 ieee x = atmost0 rn64 a.
Proof. intros x a (F & <-). unfold atmost0. rewrite c0_zero, c0_rn. apply (ble_ok x fzero); auto. Qed.

Lemma conv_small : forall z, (z < 2 ^ 64)%Z -> to_size64 z = to_size z.
Proof. intros z H. unfold to_size64, to_size. destruct (Z.ltb_spec z 0); auto. destruct (Z.leb_spec (2 ^ 64) z); auto. lia. Qed.
Lemma round_small : forall r, r <= bpow radix2 52 -> (Rround r < 2 ^ 64)%Z.
Proof.
  intros r H. unfold Rround. destruct (Rlt_dec r 0) as [L|L].
  - assert (0 <= Zfloor (- r + / 2))%Z by (apply Zfloor_lub; simpl; lra). lia.
  - apply lt_IZR. apply Rle_lt_trans with (r + / 2); [apply Zfloor_lb|].
    change (IZR (2 ^ 64)) with (bpow radix2 64). assert (bpow radix2 52 * 4 <= bpow radix2 64) by (change 4 with (bpow radix2 2); rewrite <- bpow_plus; apply bpow_le; lia).
    assert (1 <= bpow radix2 52) by (change 1 with (bpow radix2 0); apply bpow_le; lia). lra.
Qed.
Lemma ceil_small : forall r, r <= bpow radix2 52 -> (Zceil r < 2 ^ 64)%Z.
Proof.
  intros r H. assert (Zceil r <= 2 ^ 52)%Z by (apply Zceil_glb; exact H). lia.
Qed.
Lemma rep_round : forall x r, rep x r -> r <= bpow radix2 52 -> a_round ieee x = a_round rn64 r.
Proof.
  intros x r (F & <-) H. cbn [a_round ieee rn64 rounded]. unfold fround, size_round. rewrite F. apply conv_small, round_small, H.
Qed.
Lemma rep_ceil : forall x r, rep x r -> r <= bpow radix2 52 -> a_ceil ieee x = a_ceil rn64 r.
Proof.
  intros x r (F & <-) H. cbn [a_ceil ieee rn64 rounded]. unfold fceil, size_ceil. rewrite F. apply conv_small, ceil_small, H.
Qed.
Lemma rep_size : forall n, (Z.of_nat n <= 2 ^ 53)%Z -> rep (a_size ieee n) (a_size rn64 n).
Proof.
  intros n H. destruct (fmake_exact (Z.of_nat n)) as (A & B); [lia|]. split; [exact A|].
  change (f2r (fmake (Z.of_nat n) 0) = b64 (INR n)). rewrite B, is_b64_INR by auto. symmetry. apply INR_IZR_INZ.
Qed.
Lemma b64_pow : forall e, (-1074 <= e)%Z -> b64 (bpow radix2 e) = bpow radix2 e.
Proof. intros e H. apply b64_fix. rewrite <- (Rmult_1_l (bpow radix2 e)). apply is_b64_dyadic; lia. Qed.
Lemma pow_le_top : forall e, (e <= 1023)%Z -> bpow radix2 e <= top.
Proof. intros e H. eapply Rle_trans; [|apply pow_top]. apply bpow_le; auto. Qed.

Section S.
Variable S : field -> f64.
Variable pause : bool.
Variable dT : f64.
Variable B : R.
Let s : field -> R := fun q => f2r (S q).
Let g := gset_of s pause.
Hypothesis G : good_r b64 g.
Hypothesis FS : forall q, In q [q_share; q_terminal; q_maxStep; q_nomStep; q_mergeB; q_mergeE] -> fin (S q) = true.
Hypothesis FT : fin dT = true.
Hypothesis D0 : bpow radix2 (-900) <= f2r dT.
Hypothesis D1 : f2r dT <= B.
Hypothesis D2 : B <= bpow radix2 50 * f2r dT.
Hypothesis DB : B <= bpow radix2 900.
Hypothesis HT : f2r (S q_terminal) <= B.

Lemma rep_set : forall q, In q [q_share; q_terminal; q_maxStep; q_nomStep; q_mergeB; q_mergeE] -> rep (S q) (s q).
Proof. intros q H. split; [apply FS; auto|reflexivity]. Qed.
Ltac setq := apply rep_set; simpl; tauto.
Lemma rep_dT : rep dT (f2r dT). Proof. split; auto. Qed.
Lemma dpos : 0 < f2r dT. Proof. eapply Rlt_le_trans; [apply bpow_gt_0|exact D0]. Qed.
Lemma share01 : 0 <= s q_share <= 1. Proof. exact (gr_pct _ _ G). Qed.
Lemma nom_pos : 0 < s q_nomStep. Proof. apply (gr_nom _ _ G). Qed.

Lemma rep_swing : rep (n_swing ieee S) (n_swing rn64 s).
Proof.
  pose proof share01. pose proof nom_pos. assert (T : s q_nomStep <= top) by (apply le_top).
  assert (P : 0 <= s q_share * s q_nomStep <= s q_nomStep).
  { split; [apply Rmult_le_pos; lra|]. rewrite <- (Rmult_1_l (s q_nomStep)) at 2. apply Rmult_le_compat_r; lra. }
  assert (Q : 0 <= b64 (s q_share * s q_nomStep) <= s q_nomStep).
  { split; [apply (rnd_nonneg _ b64_rounding); lra|apply (rnd_le _ b64_rounding); [lra|apply f2r_fix]]. }
  unfold n_swing. apply rep_sub; [setq| |].
  - apply rep_mul; [setq|setq|]. rewrite Rabs_pos_eq; lra.
  - change (a_mul rn64 (s q_share) (s q_nomStep)) with (b64 (s q_share * s q_nomStep)). rewrite Rabs_pos_eq; lra.
Qed.
Lemma swing_range : 0 <= n_swing rn64 s <= s q_nomStep.
Proof. apply (nominal_bounds b64 b64_rounding g G). Qed.

Lemma div_abs : forall a b c, 0 <= a <= c -> 1 <= b -> Rabs (a / b) <= c.
Proof.
  intros a b c H Hb. rewrite Rabs_pos_eq by (apply div_nonneg; lra). apply Rle_trans with (a / 1); [|lra].
  apply Rmult_le_compat_l; [lra|]. apply Rinv_le_contravar; lra.
Qed.
Lemma rep_switch : forall f sf x t, rep x t -> 0 <= t <= bpow radix2 1000 ->
  rep (n_switch ieee S pause f sf x) (n_switch rn64 s pause f sf t).
Proof.
  intros f sf x t X Ht. pose proof share01. pose proof swing_range as W.
  assert (T : bpow radix2 1000 * 4 <= top).
  { change 4 with (bpow radix2 2). rewrite <- bpow_plus. apply pow_le_top. lia. }
  assert (T1 : 4 <= top) by (change 4 with (bpow radix2 2); apply pow_le_top; lia).
  unfold n_switch. rewrite (rep_lt (S q_maxStep) x (s q_maxStep) t) by (auto; setq).
  destruct (f && negb sf).
  - assert (H1 : 0 <= b64 (s q_share / 2) <= 1 / 2) by (split; [apply (rnd_nonneg _ b64_rounding); lra|apply (rnd_le _ b64_rounding); [lra|apply (r_half _ b64_rounding)]]).
    assert (R1 : rep (a_div ieee (S q_share) (a_q ieee 2 1)) (b64 (s q_share / 2))).
    { rewrite <- q21. apply (rep_div _ _ _ (a_q rn64 2 1)); [setq|apply rep_2|rewrite q21; lra|]. rewrite q21. apply Rle_trans with 1; [|lra]. apply div_abs; lra. }
    assert (H2 : 1 / 2 <= b64 (1 - b64 (s q_share / 2)) <= 1).
    { split; [apply (rnd_ge _ b64_rounding); [lra|apply (r_half _ b64_rounding)]|apply (rnd_le _ b64_rounding); [lra|apply (rnd_1 _ b64_rounding)]]. }
    assert (R2 : rep (a_sub ieee (a_q ieee 1 1) (a_div ieee (S q_share) (a_q ieee 2 1))) (b64 (1 - b64 (s q_share / 2)))).
    { rewrite <- q11. apply (rep_sub _ _ (a_q rn64 1 1)); [apply rep_1|exact R1|]. rewrite q11. rewrite Rabs_pos_eq; lra. }
    set (d := b64 (1 - b64 (s q_share / 2))) in *.
    assert (H3 : 0 <= s q_share / d <= 2).
    { split; [apply div_nonneg; lra|]. apply (Rmult_le_reg_r d); [lra|]. field_simplify; lra. }
    assert (R3 := rep_div _ _ _ _ (rep_set q_share ltac:(simpl; tauto)) R2 ltac:(lra) ltac:(rewrite Rabs_pos_eq; lra)).
    change (a_div rn64 (s q_share) d) with (b64 (s q_share / d)) in R3.
    assert (H4 : 0 <= b64 (s q_share / d) <= 2) by (split; [apply (rnd_nonneg _ b64_rounding); lra|apply (rnd_le _ b64_rounding); [lra|apply (rnd_2 _ b64_rounding)]]).
    set (k := b64 (s q_share / d)) in *.
    assert (H5 : 0 <= k * t <= 2 * bpow radix2 1000) by (split; [apply Rmult_le_pos; lra|apply Rmult_le_compat; lra]).
    assert (R4 := rep_mul _ _ _ _ R3 X ltac:(rewrite Rabs_pos_eq; lra)).
    change (a_mul rn64 k t) with (b64 (k * t)) in R4.
    assert (H6 : 0 <= b64 (k * t) <= 2 * bpow radix2 1000).
    { split; [apply (rnd_nonneg _ b64_rounding); lra|apply (rnd_le _ b64_rounding); [lra|]].
      replace (2 * bpow radix2 1000) with (bpow radix2 1001) by (change 2 with (bpow radix2 1); rewrite <- bpow_plus; reflexivity). apply b64_pow. lia. }
    change (a_q rn64 1 1) with (c1 rn64). rewrite c1_rn.
    replace (a_div rn64 (s q_share) (a_sub rn64 1 (a_div rn64 (s q_share) (a_q rn64 2 1)))) with k by (rewrite q21; reflexivity).
    apply rep_div; [exact R4|apply rep_2|rewrite q21; lra|]. rewrite q21. apply Rle_trans with (2 * bpow radix2 1000); [|lra].
    apply div_abs; [exact H6|lra].
  - destruct (pause && a_lt rn64 (s q_maxStep) t).
    + assert (TT : s q_nomStep <= top) by (apply le_top). apply rep_sub; [exact X|apply rep_swing|]. apply Rabs_le. lra.
    + apply rep_mul; [setq|exact X|].
      assert (0 <= s q_share * t <= 1 * bpow radix2 1000) by (split; [apply Rmult_le_pos; lra|apply Rmult_le_compat; lra]).
      rewrite Rabs_pos_eq; lra.
Qed.

(** Counts. *)
Lemma q_small : forall t, 0 <= t <= 4 * B -> 0 <= t / f2r dT <= bpow radix2 52.
Proof.
  intros t H. pose proof dpos as P. split; [apply div_nonneg; lra|]. apply (Rmult_le_reg_r (f2r dT)); [auto|].
  replace (t / f2r dT * f2r dT) with t by (field; lra).
  replace (bpow radix2 52) with (4 * bpow radix2 50) by (change 4 with (bpow radix2 2); rewrite <- bpow_plus; reflexivity). lra.
Qed.
Lemma rep_count : forall x t, rep x t -> 0 <= t <= 4 * B -> 
  a_round ieee (a_div ieee x dT) = Ok (n_step b64 (f2r dT) t) /\ a_round rn64 (a_div rn64 t (f2r dT)) = Ok (n_step b64 (f2r dT) t)
  /\ (Z.of_nat (n_step b64 (f2r dT) t) <= 2 ^ 52)%Z.
Proof.
  intros x t X H. pose proof dpos as P. pose proof (q_small t H) as Q.
  assert (V : b64 (t / f2r dT) <= bpow radix2 52) by (apply (rnd_le _ b64_rounding); [lra|apply b64_pow; lia]).
  assert (E : a_round rn64 (a_div rn64 t (f2r dT)) = Ok (n_step b64 (f2r dT) t)) by (apply (n_ok b64 b64_rounding); [exact P|lra]).
  split; [|split; [exact E|]].
  - rewrite <- E. apply rep_round; [|exact V]. apply rep_div; [exact X|apply rep_dT|lra|].
    rewrite Rabs_pos_eq by lra. eapply Rle_trans; [apply Q|]. apply pow_le_top. lia.
  - unfold n_step, nround. assert (R0 : 0 <= b64 (t / f2r dT)) by (apply (rnd_nonneg _ b64_rounding); lra).
    rewrite Z2Nat.id by (apply Rround_nonneg; auto). rewrite <- (Rround_IZR (2 ^ 52)) by lia. apply Rround_mono. split; [auto|exact V].
Qed.
Lemma rep_offset : forall q x t, In q [q_mergeB; q_mergeE] -> rep x t -> b64 t = t -> 0 <= t <= 4 * B ->
  n_offset ieee x (S q) dT = n_offset rn64 t (s q) (f2r dT).
Proof.
  intros q x t Hq X Rt H. pose proof (gr_mr _ _ G) as M. change (g_mrBegin g) with (s q_mergeB) in M. change (g_mrEnd g) with (s q_mergeE) in M.
  assert (M' : 0 <= s q <= 1) by (destruct Hq as [<-|[<-|[]]]; lra).
  pose proof (off_bounds b64 b64_rounding t (s q) (proj1 H) Rt M') as O.
  assert (T1 : 4 <= top) by (change 4 with (bpow radix2 2); apply pow_le_top; lia).
  assert (R1 : rep (a_sub ieee (a_q ieee 1 1) (S q)) (b64 (1 - s q))).
  { rewrite <- q11. apply (rep_sub _ _ (a_q rn64 1 1)); [apply rep_1| |rewrite q11; rewrite Rabs_pos_eq; lra]. destruct Hq as [<-|[<-|[]]]; setq. }
  assert (Q : 0 <= b64 (1 - s q) <= 1) by (split; [apply (rnd_nonneg _ b64_rounding); lra|apply (rnd_le _ b64_rounding); [lra|apply (rnd_1 _ b64_rounding)]]).
  assert (P1 : 0 <= t * b64 (1 - s q) <= t) by (split; [apply Rmult_le_pos; lra|rewrite <- (Rmult_1_r t) at 2; apply Rmult_le_compat_l; lra]).
  pose proof (rep_le _ _ X) as XT.
  assert (R2 := rep_mul _ _ _ _ X R1 ltac:(rewrite Rabs_pos_eq; lra)).
  change (a_mul rn64 t (b64 (1 - s q))) with (off b64 t (s q)) in R2.
  destruct (rep_count _ _ R2) as (A & A' & _); [lra|]. unfold n_offset. rewrite A.
  rewrite q11. symmetry. exact A'.
Qed.

(** One iteration. *)
Definition map_ncp (c : ncp f64) : ncp R :=
  MkNC (x_lp c) (x_rp c) (x_shift c) (x_cur c) (x_merge c) (x_li c) (x_ri c) (f2r (x_prev c)) (x_lastLeft c) (x_ub c).
Definition clock (c : ncp f64) : Prop := fin (x_prev c) = true /\ Rabs (f2r (x_prev c)) <= 2 * B.
Lemma step_ieee : forall nl nr sf k nx c, fin (n_time nx) = true -> Rabs (f2r (n_time nx)) <= B -> clock c ->
  n_step1 rn64 s pause (f2r dT) nl nr sf k (map_nstep f2r nx) (map_ncp c)
  = rmap map_ncp (n_step1 ieee S pause dT nl nr sf k nx c)
  /\ forall c', n_step1 ieee S pause dT nl nr sf k nx c = Ok c' -> clock c'.
Proof.
  intros nl nr sf k nx c Fn Hn (Fc & Hc). pose proof dpos as P.
  destruct (w_small (f2r dT) B D0 D1) as (W0 & W1). destruct (eta_small (f2r dT) B D0 D1) as (E0 & E1 & _).
  assert (BT : B * 16 <= bpow radix2 1000).
  { apply Rle_trans with (bpow radix2 900 * 16); [lra|]. change 16 with (bpow radix2 4). rewrite <- bpow_plus. apply bpow_le. lia. }
  assert (TT : bpow radix2 1000 <= top) by (apply pow_le_top; lia).
  pose proof (Rabs_le_inv _ _ Hn) as Hn'. pose proof (Rabs_le_inv _ _ Hc) as Hc'.
  set (t := f2r (n_time nx)) in *. set (p := f2r (x_prev c)) in *.
  assert (X : rep (a_sub ieee (n_time nx) (x_prev c)) (b64 (t - p))).
  { apply (rep_sub _ _ t p); [split; auto|split; auto|]. apply Rabs_le. lra. }
  unfold n_step1. cbn [map_nstep map_ncp n_time n_left n_idx x_lp x_rp x_shift x_cur x_merge x_li x_ri x_prev x_lastLeft x_ub].
  change (a_sub rn64 (f2r (n_time nx)) (f2r (x_prev c))) with (b64 (t - p)).
  rewrite <- (rep_below _ _ X). destruct (below0 ieee (a_sub ieee (n_time nx) (x_prev c))) eqn:EB; [split; [reflexivity|discriminate]|].
  rewrite (rep_below _ _ X) in EB. unfold below0 in EB. rewrite c0_rn in EB. apply Rltb_false in EB.
  set (y := a_sub ieee (n_time nx) (x_prev c)) in *. set (st := b64 (t - p)) in *.
  assert (ST : st <= 4 * B).
  { assert (Q : Rabs (st - (t - p)) <= u64 * (3 * B) + eta64) by (apply b64_near, Rabs_le; lra). apply Rabs_le_inv in Q. lra. }
  assert (Rst : b64 st = st) by apply (r_idem _ b64_rounding).
  pose proof (rep_switch (Nat.eqb k 2) sf y st X ltac:(lra)) as X1.
  pose proof (switch_bounds b64 b64_rounding g G (Nat.eqb k 2) sf st EB Rst) as SB.
  assert (Rsw : b64 (n_switch rn64 s pause (Nat.eqb k 2) sf st) = n_switch rn64 s pause (Nat.eqb k 2) sf st).
  { rewrite (DoublesProofs4.switch_rn s pause). apply (RoundedGenProofs2.switch_rnd b64 b64_rounding). }
  rewrite <- (DoublesProofs4.switch_rn s pause) in SB.
  set (z := n_switch ieee S pause (Nat.eqb k 2) sf y) in *. set (sw := n_switch rn64 s pause (Nat.eqb k 2) sf st) in *.
  destruct (rep_count y st X) as (C1 & C2 & C3); [lra|]. rewrite C1, C2. cbn [rbind].
  destruct (rep_count z sw X1) as (C4 & C5 & C6); [lra|]. rewrite C4, C5. cbn [rbind].
  rewrite <- (rep_offset q_mergeB z sw) by (simpl; auto; lra). rewrite <- (rep_offset q_mergeE z sw) by (simpl; auto; lra).
  set (n := n_step b64 (f2r dT) st) in *.
  (* clock *)
  assert (CL : rep (a_add ieee (x_prev c) (a_mul ieee (a_size ieee n) dT)) (a_add rn64 p (a_mul rn64 (a_size rn64 n) (f2r dT)))
    /\ Rabs (a_add rn64 p (a_mul rn64 (a_size rn64 n) (f2r dT))) <= 2 * B).
  { assert (In : b64 (INR n) = INR n) by (apply is_b64_INR; lia).
    assert (N1 : 0 <= INR n <= bpow radix2 52) by (split; [apply pos_INR|rewrite INR_IZR_INZ; apply (IZR_le _ (2 ^ 52)); lia]).
    assert (N2 : 0 <= INR n * f2r dT <= bpow radix2 952).
    { split; [apply Rmult_le_pos; lra|]. replace (bpow radix2 952) with (bpow radix2 52 * bpow radix2 900) by (rewrite <- bpow_plus; reflexivity).
      apply Rmult_le_compat; lra. }
    assert (P0 : bpow radix2 952 <= bpow radix2 999) by (apply bpow_le; lia).
    assert (P2 : bpow radix2 999 * 2 = bpow radix2 1000) by (change 2 with (bpow radix2 1); rewrite <- bpow_plus; reflexivity).
    assert (N3 : 0 <= b64 (INR n * f2r dT) <= bpow radix2 952) by (split; [apply (rnd_nonneg _ b64_rounding); lra|apply (rnd_le _ b64_rounding); [lra|apply b64_pow; lia]]).
    assert (R1 : rep (a_mul ieee (a_size ieee n) dT) (a_mul rn64 (a_size rn64 n) (f2r dT))).
    { apply rep_mul; [apply rep_size; lia|apply rep_dT|]. change (a_size rn64 n) with (b64 (INR n)). rewrite In. rewrite Rabs_pos_eq; lra. }
    split.
    - apply rep_add; [split; auto|exact R1|]. change (a_mul rn64 (a_size rn64 n) (f2r dT)) with (b64 (b64 (INR n) * f2r dT)). rewrite In.
      apply Rabs_le. fold p. lra.
    - apply (clock_step (f2r dT) B D0 D1 D2 p t Hc Hn EB). }
  destruct CL as ((CL1 & CL2) & CL3).
  destruct (sub_size n _) as [sn| |]; cbn [rbind]; try (split; [reflexivity|discriminate]).
  destruct (negb _ && negb _); [split; [reflexivity|discriminate]|].
  set (mp := if Nat.eqb k 2 then _ else _). destruct mp as [m| |]; cbn [rbind]; try (split; [reflexivity|discriminate]).
  split.
  - unfold rmap, map_ncp. cbn [x_lp x_rp x_shift x_cur x_merge x_li x_ri x_prev x_lastLeft x_ub]. fold p. rewrite CL2. reflexivity.
  - intros c' E. injection E as <-. unfold clock. cbn [x_prev]. split; [exact CL1|]. change (fadd (x_prev c) (fmul (fmake (Z.of_nat n) 0) dT)) with (a_add ieee (x_prev c) (a_mul ieee (a_size ieee n) dT)). rewrite CL2. exact CL3.
Qed.
Definition good_time (nx : nstep f64) : Prop := fin (n_time nx) = true /\ Rabs (f2r (n_time nx)) <= B.
Lemma loop_ieee : forall nl nr sf l k c, List.Forall good_time l -> clock c ->
  n_loop rn64 s pause (f2r dT) nl nr sf k (map (map_nstep f2r) l) (map_ncp c)
  = rmap map_ncp (n_loop ieee S pause dT nl nr sf k l c).
Proof.
  intros nl nr sf. induction l as [|nx l IH]; intros k c HL Hc; [reflexivity|]. cbn [map n_loop]. inversion HL as [|? ? (H1 & H2) HL']; subst.
  destruct (step_ieee nl nr sf k nx c H1 H2 Hc) as (E & C). rewrite E.
  destruct (n_step1 ieee S pause dT nl nr sf k nx c) as [c'| |]; cbn [rmap rbind]; auto.
Qed.
Lemma last_time : forall l b, n_time (last (map (map_nstep f2r) l) (map_nstep f2r b)) = f2r (n_time (last l b)).
Proof. induction l as [|x [|y l] IH]; intros b; try reflexivity. apply (IH b). Qed.
Lemma last_good : forall l b, good_time b -> List.Forall good_time l -> good_time (last l b).
Proof. induction l as [|x l IH]; intros b Hb H; [exact Hb|]. inversion H; subst. destruct l as [|y l]; [auto|]. apply (IH b); auto. Qed.
Lemma create_ieee : forall init nl nr fl fr ord, List.Forall good_time ord -> fin init = true -> Rabs (f2r init) <= B ->
  fin fl = true -> fin fr = true ->
  n_create rn64 s pause (f2r dT) (f2r init) nl nr (f2r fl) (f2r fr) (map (map_nstep f2r) ord) = n_create ieee S pause dT init nl nr fl fr ord.
Proof.
  intros init nl nr fl fr ord HO Fi Hi Ffl Ffr. pose proof dpos as P.
  pose proof (gr_end _ _ G) as Hend. change (g_endSwitch g) with (s q_terminal) in Hend.
  assert (HT' : s q_terminal <= B) by exact HT.
  destruct (rep_count (S q_terminal) (s q_terminal)) as (C1 & C2 & _); [setq|lra|].
  destruct ord as [|a [|b [|c l]]]; try reflexivity.
  - unfold n_create. cbn [map]. rewrite C1, C2. cbn [rbind].
    rewrite (rep_lt fr fl (f2r fr) (f2r fl)) by (split; auto). reflexivity.
  - unfold n_create. cbn [map]. change (map_nstep f2r c :: map (map_nstep f2r) l) with (map (map_nstep f2r) (c :: l)).
    rewrite last_time. inversion HO as [|? ? _ HO1]; subst. inversion HO1 as [|? ? Hb HO2]; subst.
    destruct (last_good (c :: l) b Hb HO2) as (L1 & L2).
    set (t := n_time (last (c :: l) b)) in *. pose proof (Rabs_le_inv _ _ L2) as L2'. pose proof (Rabs_le_inv _ _ Hi) as Hi'.
    assert (BT : B * 16 <= bpow radix2 1000).
    { apply Rle_trans with (bpow radix2 900 * 16); [lra|]. change 16 with (bpow radix2 4). rewrite <- bpow_plus. apply bpow_le. lia. }
    assert (TT : bpow radix2 1000 <= top) by (apply pow_le_top; lia).
    destruct (w_small (f2r dT) B D0 D1) as (W0 & W1). destruct (eta_small (f2r dT) B D0 D1) as (E0 & E1 & _).
    assert (R1 : rep (a_sub ieee t init) (b64 (f2r t - f2r init))).
    { apply (rep_sub _ _ (f2r t) (f2r init)); [split; auto|split; auto|]. apply Rabs_le. lra. }
    assert (Q1 : Rabs (b64 (f2r t - f2r init) - (f2r t - f2r init)) <= u64 * (2 * B) + eta64) by (apply b64_near, Rabs_le; lra).
    apply Rabs_le_inv in Q1. set (u := b64 (f2r t - f2r init)) in *.
    assert (R2 : rep (a_add ieee (a_sub ieee t init) (S q_terminal)) (b64 (u + s q_terminal))).
    { apply (rep_add _ _ u (s q_terminal)); [exact R1|setq|]. apply Rabs_le. lra. }
    assert (Q2 : Rabs (b64 (u + s q_terminal) - (u + s q_terminal)) <= u64 * (4 * B) + eta64) by (apply b64_near, Rabs_le; lra).
    apply Rabs_le_inv in Q2. set (v := b64 (u + s q_terminal)) in *.
    assert (Q3 : v / f2r dT <= bpow radix2 52).
    { apply (Rmult_le_reg_r (f2r dT)); [auto|]. replace (v / f2r dT * f2r dT) with v by (field; lra).
      replace (bpow radix2 52) with (4 * bpow radix2 50) by (change 4 with (bpow radix2 2); rewrite <- bpow_plus; reflexivity). lra. }
    assert (Q4 : - bpow radix2 53 <= v / f2r dT).
    { apply (Rmult_le_reg_r (f2r dT)); [auto|]. replace (v / f2r dT * f2r dT) with v by (field; lra).
      replace (bpow radix2 53) with (8 * bpow radix2 50) by (change 8 with (bpow radix2 3); rewrite <- bpow_plus; reflexivity). lra. }
    assert (PW : bpow radix2 52 <= bpow radix2 53 <= top) by (split; [apply bpow_le; lia|apply pow_le_top; lia]).
    assert (R3 : rep (a_div ieee (a_add ieee (a_sub ieee t init) (S q_terminal)) dT) (b64 (v / f2r dT))).
    { apply (rep_div _ _ v (f2r dT)); [exact R2|apply rep_dT|lra|]. apply Rabs_le. lra. }
    rewrite (rep_ceil _ _ R3) by (apply (rnd_le _ b64_rounding); [lra|apply b64_pow; lia]).
    change (a_div rn64 (a_add rn64 (a_sub rn64 (f2r t) (f2r init)) (s q_terminal)) (f2r dT)) with (b64 (v / f2r dT)).
    destruct (a_ceil rn64 (b64 (v / f2r dT))); cbn [rbind]; try reflexivity.
    rewrite (rep_eq fl fr (f2r fl) (f2r fr)) by (split; auto).
    assert (CK : clock (MkNC [] [] [0%nat] 0 [0%nat] 1 1 init None false)) by (split; cbn [x_prev]; [exact Fi|lra]).
    pose proof (loop_ieee nl nr (a_eq rn64 (f2r fl) (f2r fr)) (c :: l) 2 _ HO2 CK) as Q.
    unfold map_ncp at 1 in Q. cbn [x_lp x_rp x_shift x_cur x_merge x_li x_ri x_prev x_lastLeft x_ub] in Q. rewrite Q.
    destruct (n_loop ieee S pause dT nl nr _ 2 (c :: l) _) as [x| |]; cbn [rmap rbind]; try reflexivity.
    rewrite C1, C2. reflexivity.
Qed.
Lemma adjacent_ieee : forall l, List.Forall good_time l -> n_adjacent rn64 (map (map_nstep f2r) l) = n_adjacent ieee l.
Proof.
  induction l as [|a [|b l] IH]; intros H; [reflexivity|reflexivity|]. cbn [map n_adjacent] in *. inversion H as [|? ? (Ha & _) H']; subst.
  rewrite IH by auto. inversion H' as [|? ? (Hb & _) _]; subst.
  rewrite (rep_eq (n_time a) (n_time b) (f2r (n_time a)) (f2r (n_time b))) by (split; auto). reflexivity.
Qed.
Lemma order_ieee : forall l, List.Forall good_time l -> n_order rn64 (map (map_nstep f2r) l) = rmap (map (map_nstep f2r)) (n_order ieee l).
Proof.
  intros [|a [|b [|c l]]] H; try reflexivity. cbn [map]. unfold n_order. inversion H as [|? ? (Ha & _) H1]; subst. inversion H1 as [|? ? (Hb & _) H2]; subst.
  change (map_nstep f2r c :: map (map_nstep f2r) l) with (map (map_nstep f2r) (c :: l)). rewrite adjacent_ieee by auto.
  destruct (n_adjacent ieee (c :: l)); [reflexivity|]. cbn [map n_time n_name map_nstep].
  rewrite (rep_eq (n_time a) (n_time b) (f2r (n_time a)) (f2r (n_time b))) by (split; auto).
  destruct (a_eq rn64 _ _ && String.eqb _ _); reflexivity.
Qed.
Lemma order_good : forall l o, List.Forall good_time l -> n_order ieee l = Ok o -> List.Forall good_time o.
Proof.
  intros [|a [|b [|c l]]] o H E; unfold n_order in E; try discriminate.
  - injection E as <-. auto.
  - cbn [n_adjacent] in E. injection E as <-. auto.
  - destruct (n_adjacent ieee (c :: l)); [discriminate|]. inversion H as [|? ? Ha H1]; subst. inversion H1 as [|? ? Hb H2]; subst.
    destruct (_ && _); injection E as <-; auto.
Qed.
Lemma generate_ieee : forall left right init srt,
  (forall x, In x (nf_steps left ++ nf_steps right) -> fin (fst x) = true /\ Rabs (f2r (fst x)) <= B) ->
  fin init = true -> Rabs (f2r init) <= B -> List.Forall good_time srt ->
  n_generate rn64 s pause (map_nfoot f2r left) (map_nfoot f2r right) (f2r init) (f2r dT) (map (map_nstep f2r) srt)
  = rmap (fun o => (map (map_nstep f2r) (fst o), snd o)) (n_generate ieee S pause left right init dT srt).
Proof.
  intros left right init srt HF Fi Hi HS. unfold n_generate. rewrite <- (rep_atmost dT) by apply rep_dT.
  cbn [map_nfoot nf_steps nf_name]. rewrite !map_length.
  destruct (Nat.ltb _ _); [reflexivity|]. destruct (Nat.ltb _ _); [reflexivity|]. destruct (String.eqb _ _); [reflexivity|].
  destruct (atmost0 ieee dT); [reflexivity|].
  destruct (nf_steps left) as [|(tl & nl) ll] eqn:EL; [reflexivity|]. destruct (nf_steps right) as [|(tr & nr) rr] eqn:ER; [reflexivity|].
  cbn [map fst snd].
  assert (FL : fin tl = true) by (apply (HF (tl, nl)); simpl; auto).
  assert (FR : fin tr = true) by (apply (HF (tr, nr)); apply in_or_app; right; simpl; auto).
  rewrite (rep_lt tl tr (f2r tl) (f2r tr)) by (split; auto).
  replace (if a_lt rn64 (f2r tl) (f2r tr) then f2r tr else f2r tl) with (f2r (if a_lt rn64 (f2r tl) (f2r tr) then tr else tl)) by (destruct (a_lt rn64 _ _); reflexivity).
  rewrite (rep_lt init (if a_lt rn64 (f2r tl) (f2r tr) then tr else tl) (f2r init) (f2r (if a_lt rn64 (f2r tl) (f2r tr) then tr else tl))).
  2: { split; auto. } 2: { split; auto. destruct (a_lt rn64 _ _); auto. }
  destruct (a_lt rn64 (f2r init) _); [reflexivity|]. rewrite order_ieee by auto.
  destruct (n_order ieee srt) as [ord| |] eqn:EO; cbn [rmap rbind]; try reflexivity.
  rewrite create_ieee by (auto; apply (order_good srt); auto).
  destruct (n_create ieee _ _ _ _ _ _ _ _ _); reflexivity.
Qed.
End S.
