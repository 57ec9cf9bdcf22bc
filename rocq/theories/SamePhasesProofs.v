(** The phases computed in binary64 are the exact ones off the ties. *)
From Coq Require Import String Reals Lra Lia ZArith List Bool.
From Flocq Require Import Core.
From Verif Require Import Prelude Rounding FootPrint GenPhases GenSpec GenProofs GenProofs2 GenProofs3 GenProofs4 RoundedGen RoundedGenSpec RoundedGenProofs RoundedGenProofs2
  RoundedGenProofs3 RoundedGenProofs4 RoomProofs SamePhasesSpec.
Import ListNotations.
Open Scope R_scope.

Lemma eta_u : 0 <= eta64 /\ 1000 * eta64 <= u64.
Proof.
  split; [apply eta64_pos|]. unfold eta64, u64.
  assert (H : bpow radix2 (-1074) * bpow radix2 10 <= bpow radix2 (-52)) by (rewrite <- bpow_plus; apply bpow_le; lia).
  assert (B10 : bpow radix2 10 = 1024) by reflexivity. rewrite B10 in H. pose proof (bpow_ge_0 radix2 (-1074)). lra.
Qed.

(** ** Settings *)
Lemma share_near : forall r, 0 < r -> Rabs (b64 (r / b64 (1 + r)) - r / (1 + r)) <= 4 * u64.
Proof.
  intros r Hr. destruct eta_u as (E0 & E1). pose proof u64_val as U. set (u := u64) in *.
  pose proof (b64_near (1 + r) (1 + r) ltac:(rewrite Rabs_pos_eq; lra)) as N1. apply Rabs_le_inv in N1. fold u in N1.
  set (q := b64 (1 + r)) in *.
  assert (K : u * (1 + r) + eta64 <= 101 / 100 * u * (1 + r)).
  { assert (0 <= u * r) by (apply Rmult_le_pos; lra). lra. }
  assert (Q : (1 + r) / (101 / 100) <= q).
  { assert (u * (1 + r) <= / 1000000 * (1 + r)) by (apply Rmult_le_compat_r; lra). lra. }
  assert (Hq : 0 < q) by lra.
  assert (D : Rabs (r / q - r / (1 + r)) <= 2 * u).
  { replace (r / q - r / (1 + r)) with (r / (1 + r) * ((1 + r - q) / q)) by (field; lra). rewrite Rabs_mult.
    assert (A1 : Rabs (r / (1 + r)) <= 1). { rewrite Rabs_pos_eq by (apply div_nonneg; lra). apply (Rmult_le_reg_r (1 + r)); [lra|]. field_simplify; lra. }
    assert (A2 : Rabs ((1 + r - q) / q) <= 2 * u).
    { unfold Rdiv. rewrite Rabs_mult, (Rabs_pos_eq (/ q)) by (apply Rlt_le, Rinv_0_lt_compat; auto).
      apply (Rmult_le_reg_r q); auto. rewrite Rmult_assoc, Rinv_l, Rmult_1_r by lra.
      apply Rle_trans with (101 / 100 * u * (1 + r)); [apply Rabs_le; lra|].
      assert (2 * u * ((1 + r) / (101 / 100)) <= 2 * u * q) by (apply Rmult_le_compat_l; lra). assert (0 <= u * (1 + r)) by (apply Rmult_le_pos; lra). lra. }
    apply Rle_trans with (1 * (2 * u)); [apply Rmult_le_compat; auto using Rabs_pos|lra]. }
  apply Rabs_le_inv in D.
  assert (P : 0 <= r / q <= 2).
  { split; [apply div_nonneg; lra|]. assert (r / (1 + r) <= 1) by (apply (Rmult_le_reg_r (1 + r)); [lra|]; field_simplify; lra). lra. }
  assert (P' : r / q <= 101 / 100).
  { apply (Rmult_le_reg_r q); auto. replace (r / q * q) with r by (field; lra). lra. }
  pose proof (b64_near (r / q) (101 / 100) ltac:(rewrite Rabs_pos_eq; lra)) as N2. apply Rabs_le_inv in N2. fold u in N2. apply Rabs_le. lra.
Qed.

(** The same settings but for the share of the double support. *)
Definition near_settings (g g' : gset) : Prop :=
  g_endSwitch g' = g_endSwitch g /\ g_maxStep g' = g_maxStep g /\ g_nomStep g' = g_nomStep g /\ g_pause g' = g_pause g
  /\ g_mrBegin g' = g_mrBegin g /\ g_mrEnd g' = g_mrEnd g /\ Rabs (g_switchPct g' - g_switchPct g) <= 4 * u64.
Lemma near_run : forall o g g', near_settings g g' -> near_settings (gset_run g o) (gset_run_r b64 g' o).
Proof.
  intros o g g' N. assert (N' := N). destruct N as (A & B & C & D & E & F & H). destruct o; cbn [gset_run gset_run_r].
  - unfold set_switchRatio, set_switchRatio_r. destruct (Rleb r 0) eqn:L; cbn [fst]; [exact N'|]. apply Rleb_false in L.
    unfold near_settings. cbn. repeat split; auto. apply share_near; auto.
  - unfold set_terminalSwitch. destruct (Rleb t 0); cbn [fst]; [exact N'|]. unfold near_settings. cbn. repeat split; auto.
  - unfold near_settings. cbn. repeat split; auto.
  - unfold set_pauseConditions. destruct (Rltb mx 0); cbn [fst]; [exact N'|]. destruct (Rleb nom 0); cbn [fst]; [exact N'|]. destruct (Rgtb nom mx); cbn [fst]; [exact N'|].
    unfold near_settings. cbn. repeat split; auto.
  - unfold set_mergeRatio. destruct (_ || _); cbn [fst]; [exact N'|]. destruct (_ || _); cbn [fst]; [exact N'|]. destruct (Rgtb _ _); cbn [fst]; [exact N'|].
    unfold near_settings. cbn. repeat split; auto.
  - unfold near_settings. cbn. repeat split; auto.
Qed.
Lemma near_history : forall ops, near_settings (fold_left gset_run ops gset_new) (settings64 ops).
Proof.
  intros ops. unfold settings64.
  assert (Q : forall g g', near_settings g g' -> near_settings (fold_left gset_run ops g) (fold_left (gset_run_r b64) ops g')).
  { induction ops as [|o ops IH]; intros g g' N; cbn [fold_left]; auto. apply IH. apply near_run. exact N. }
  apply Q. unfold near_settings. repeat split. rewrite Rminus_eq_0, Rabs_R0, u64_val. lra.
Qed.

Lemma ceil_ok : forall y, 0 <= y -> exists z, size_ceil y = Ok z.
Proof.
  intros y H. unfold size_ceil, to_size. destruct (Z.ltb_spec (Zceil y) 0) as [K|K]; eauto.
  exfalso. pose proof (Zceil_ub y) as Z1. apply IZR_lt in K. lra.
Qed.

Lemma off_between : forall dT d x n, 0 < dT -> (IZR n - / 2) * dT + d < x -> x < (IZR n + / 2) * dT - d -> off_ties dT d x.
Proof.
  intros dT d x n P H1 H2 z. destruct (Z_lt_le_dec z n) as [L|L].
  - assert (IZR z <= IZR n - 1) by (rewrite <- minus_IZR; apply IZR_le; lia). assert ((IZR z + / 2) * dT <= (IZR n - / 2) * dT) by (apply Rmult_le_compat_r; lra).
    eapply Rlt_le_trans; [|apply Rle_abs]. lra.
  - apply IZR_le in L. assert ((IZR n + / 2) * dT <= (IZR z + / 2) * dT) by (apply Rmult_le_compat_r; lra).
    rewrite <- Rabs_Ropp. eapply Rlt_le_trans; [|apply Rle_abs]. lra.
Qed.

Section Same.
Variables (g g' : gset) (dT B del : R).
Hypothesis N : near_settings g g'.
Hypothesis G : good_r b64 g'.
Hypothesis E : good_settings g.
Hypothesis D0 : bpow radix2 (-900) <= dT.
Hypothesis D1 : dT <= B.
Hypothesis D2 : B <= bpow radix2 50 * dT.
Notation w := (u64 * B).

Lemma samples_same : forall y y' e, 0 <= y -> 0 <= y' <= 4 * B -> Rabs (y - y') <= e -> e + 5 * w <= del -> off_ties dT del y ->
  size_round (y / dT) = Ok (nround (y / dT)) /\ size_round (b64 (y' / dT)) = Ok (nround (y / dT)).
Proof.
  intros y y' e Hy Hy' He Hd T. destruct (w_pos dT B D0 D1) as (W0 & W1 & E0 & E1 & E2 & P).
  assert (Y : 0 <= y / dT) by (apply div_nonneg; lra). assert (Y' : 0 <= y' / dT) by (apply div_nonneg; lra).
  split; [apply size_round_ok; auto|].
  assert (Q0 : 0 <= b64 (y' / dT)) by (apply (rnd_nonneg _ b64_rounding); auto).
  rewrite size_round_ok by auto. f_equal. destruct (nround_bounds _ Y) as (M1 & M2). set (n := nround (y / dT)) in *. apply nround_imp; auto.
  destruct (u_times B y' Hy') as (U1 & U2).
  pose proof (b64_near (y' / dT) (y' / dT)) as K. rewrite Rabs_pos_eq in K by lra. specialize (K (Rle_refl _)). apply Rabs_le_inv in K.
  assert (Q1 : (b64 (y' / dT) - y' / dT) * dT <= (u64 * (y' / dT) + eta64) * dT) by (apply Rmult_le_compat_r; lra).
  assert (Q2 : - (u64 * (y' / dT) + eta64) * dT <= (b64 (y' / dT) - y' / dT) * dT) by (apply Rmult_le_compat_r; lra).
  replace ((b64 (y' / dT) - y' / dT) * dT) with (b64 (y' / dT) * dT - y') in Q1, Q2 by (field; lra).
  replace ((u64 * (y' / dT) + eta64) * dT) with (u64 * y' + eta64 * dT) in Q1 by (field; lra).
  replace (- (u64 * (y' / dT) + eta64) * dT) with (- (u64 * y' + eta64 * dT)) in Q2 by (field; lra).
  apply Rabs_le_inv in He.
  assert (L1 : (INR n - / 2) * dT <= y). { replace y with (y / dT * dT) by (field; lra). apply Rmult_le_compat_r; lra. }
  assert (L2 : y < (INR n + / 2) * dT). { replace y with (y / dT * dT) by (field; lra). apply Rmult_lt_compat_r; lra. }
  pose proof (T (Z.of_nat n)) as T1. pose proof (T (Z.of_nat n - 1)%Z) as T2. rewrite minus_IZR in T2. rewrite <- INR_IZR_INZ in T1, T2.
  replace (INR n - 1 + / 2) with (INR n - / 2) in T2 by lra.
  rewrite Rabs_pos_eq in T2 by lra. rewrite Rabs_left in T1 by lra.
  split; apply (Rmult_le_reg_r dT) || apply (Rmult_lt_reg_r dT); auto; lra.
Qed.

Let p := g_switchPct g.
Let p' := g_switchPct g'.
Lemma shares : 0 < p < 1 /\ 0 <= p' <= 1 /\ - (4 * u64) <= p' - p <= 4 * u64.
Proof.
  destruct N as (_ & _ & _ & _ & _ & _ & Q). apply Rabs_le_inv in Q. split; [apply E|]. split; [apply (gr_pct _ _ G)|exact Q].
Qed.
Lemma quotient_near : forall a b c d, 1 / 2 <= c <= 1 -> 1 / 2 <= d <= 1 -> 0 <= b <= 1 -> Rabs (a / c - b / d) <= 2 * Rabs (a - b) + 4 * Rabs (c - d).
Proof.
  intros a b c d Hc Hd Hb. replace (a / c - b / d) with ((a - b) * / c + b * ((d - c) * (/ c * / d))) by (field; lra).
  assert (Q1 : 0 < / c <= 2) by (split; [apply Rinv_0_lt_compat; lra|replace 2 with (/ (1 / 2)) by field; apply Rinv_le_contravar; lra]).
  assert (Q2 : 0 < / d <= 2) by (split; [apply Rinv_0_lt_compat; lra|replace 2 with (/ (1 / 2)) by field; apply Rinv_le_contravar; lra]).
  assert (Q3 : 0 <= / c * / d <= 4) by (split; [apply Rmult_le_pos; lra|replace 4 with (2 * 2) by ring; apply Rmult_le_compat; lra]).
  eapply Rle_trans; [apply Rabs_triang|]. rewrite !Rabs_mult. rewrite (Rabs_pos_eq (/ c)), (Rabs_pos_eq (/ d)), (Rabs_pos_eq b) by lra.
  rewrite (Rabs_minus_sym d c). pose proof (Rabs_pos (a - b)). pose proof (Rabs_pos (c - d)).
  apply Rplus_le_compat; [rewrite Rmult_comm; apply Rmult_le_compat_r; lra|].
  apply Rle_trans with (1 * (Rabs (c - d) * (/ c * / d))).
  - apply Rmult_le_compat_r; [apply Rmult_le_pos; lra|lra].
  - rewrite Rmult_1_l, Rmult_comm. apply Rmult_le_compat_r; lra.
Qed.
(** The factor of the first step. *)
Lemma factor_near : let r := b64 (p' / b64 (1 - b64 (p' / 2))) in 0 <= r <= 2 /\ Rabs (r - p / (1 - p / 2)) <= 29 * u64.
Proof.
  cbv zeta. destruct shares as (P & P' & S). destruct eta_u as (E0 & E1). pose proof u64_val as U.
  pose proof (b64_near (p' / 2) 1 ltac:(rewrite Rabs_pos_eq; lra)) as N1. apply Rabs_le_inv in N1.
  assert (H1 : 0 <= b64 (p' / 2) <= 1 / 2) by (split; [apply (rnd_nonneg _ b64_rounding); lra|apply (rnd_le _ b64_rounding); [lra|apply (r_half _ b64_rounding)]]).
  pose proof (b64_near (1 - b64 (p' / 2)) 1 ltac:(rewrite Rabs_pos_eq; lra)) as N2. apply Rabs_le_inv in N2.
  assert (H2 : 1 / 2 <= b64 (1 - b64 (p' / 2)) <= 1).
  { split; [apply (rnd_ge _ b64_rounding); [lra|apply (r_half _ b64_rounding)]|apply (rnd_le _ b64_rounding); [lra|apply (rnd_1 _ b64_rounding)]]. }
  set (q := b64 (1 - b64 (p' / 2))) in *.
  assert (H3 : 0 <= p' / q <= 2) by (split; [apply div_nonneg; lra|apply (Rmult_le_reg_r q); [lra|]; field_simplify; lra]).
  pose proof (b64_near (p' / q) 2 ltac:(rewrite Rabs_pos_eq; lra)) as N3.
  split; [split; [apply (rnd_nonneg _ b64_rounding); lra|apply (rnd_le _ b64_rounding); [lra|apply (rnd_2 _ b64_rounding)]]|].
  pose proof (quotient_near p' p q (1 - p / 2) H2 ltac:(lra) ltac:(lra)) as Q.
  assert (A1 : Rabs (p' - p) <= 4 * u64) by (apply Rabs_le; lra). assert (A2 : Rabs (q - (1 - p / 2)) <= 9 / 2 * u64) by (apply Rabs_le; lra).
  apply Rabs_le_inv in N3. apply Rabs_le_inv in Q. apply Rabs_le. lra.
Qed.

Lemma support_near : forall f sf x x' e, 0 <= x <= 4 * B -> 0 <= x' <= 4 * B -> Rabs (x - x') <= e -> (g_pause g = true -> e < Rabs (x - g_maxStep g)) ->
  Rabs (switch_time g (g_nomStep g - g_switchPct g * g_nomStep g) f sf x - switch_time_r b64 g' (nominal_swing_r b64 g') f sf x') <= e + 70 * w.
Proof.
  intros f sf x x' e Hx Hx' He Hm. destruct (w_pos dT B D0 D1) as (W0 & W1 & E0 & E1 & E2 & P). destruct shares as (Hp & Hp' & Sh). destruct eta_u as (_ & Eu).
  destruct N as (_ & Nx & Nn & Np & _). unfold switch_time, switch_time_r, nominal_swing_r. rewrite Nx, Nn, Np. fold p p'. pose proof He as Ha. apply Rabs_le_inv in He.
  assert (UB4 : u64 * x' <= 4 * w /\ 0 <= u64 * x') by (apply (u_times B); auto).
  destruct (f && negb sf).
  - destruct factor_near as (F1 & F2). set (r := b64 (p' / b64 (1 - b64 (p' / 2)))) in *. set (rho := p / (1 - p / 2)) in *.
    assert (Rh : 0 <= rho <= 2) by (unfold rho; split; [apply div_nonneg; lra|apply (Rmult_le_reg_r (1 - p / 2)); [lra|]; field_simplify; lra]).
    assert (RX : 0 <= r * x' <= 8 * B) by (split; [apply Rmult_le_pos; lra|replace (8 * B) with (2 * (4 * B)) by ring; apply Rmult_le_compat; lra]).
    pose proof (b64_near (r * x') (8 * B) ltac:(rewrite Rabs_pos_eq; lra)) as N1. apply Rabs_le_inv in N1. replace (u64 * (8 * B)) with (8 * w) in N1 by ring.
    set (y := b64 (r * x')) in *. assert (Y0 : 0 <= y) by (apply (rnd_nonneg _ b64_rounding); lra).
    pose proof (b64_near (y / 2) (5 * B) ltac:(rewrite Rabs_pos_eq; lra)) as N2. apply Rabs_le_inv in N2. replace (u64 * (5 * B)) with (5 * w) in N2 by ring.
    assert (A : Rabs (r * x' - rho * x) <= 116 * w + 2 * e).
    { replace (r * x' - rho * x) with ((r - rho) * x' - rho * (x - x')) by ring. unfold Rminus at 1. eapply Rle_trans; [apply Rabs_triang|]. rewrite Rabs_Ropp, !Rabs_mult, (Rabs_pos_eq rho), (Rabs_pos_eq x') by lra.
      apply Rplus_le_compat.
      - apply Rle_trans with (29 * u64 * x'); [apply Rmult_le_compat_r; lra|]. lra.
      - apply Rmult_le_compat; try lra. apply Rabs_pos. }
    apply Rabs_le_inv in A. apply Rabs_le. lra.
  - assert (Dec : g_pause g && Rgtb x (g_maxStep g) = g_pause g && Rgtb x' (g_maxStep g)).
    { destruct (g_pause g); [|reflexivity]. specialize (Hm eq_refl). cbn [andb]. unfold Rgtb, Rabs in *. destruct (Rcase_abs _); rcases; auto; lra. }
    rewrite Dec. clear Dec. destruct (g_pause g && Rgtb x' (g_maxStep g)) eqn:Ep.
    + apply andb_prop in Ep. destruct Ep as (_ & Eg). unfold Rgtb in Eg. apply Rltb_true in Eg.
      pose proof (gr_nom _ _ G) as Gn. pose proof (gr_rnom _ _ G) as Gr. rewrite Nn, ?Nx in Gn. rewrite Nn in Gr. set (m := g_nomStep g) in *.
      assert (M4 : 0 <= m <= 4 * B) by lra. destruct (u_times B m M4) as (Um & Um0).
      assert (PM : 0 <= p' * m <= m) by (split; [apply Rmult_le_pos; lra|rewrite <- (Rmult_1_l m) at 2; apply Rmult_le_compat_r; lra]).
      pose proof (near_time B (p' * m) ltac:(lra)) as N1. apply Rabs_le_inv in N1.
      assert (Q : 0 <= b64 (p' * m) <= m) by (split; [apply (rnd_nonneg _ b64_rounding); lra|apply (rnd_le _ b64_rounding); [lra|exact Gr]]).
      pose proof (near_time B (m - b64 (p' * m)) ltac:(lra)) as N2. apply Rabs_le_inv in N2.
      assert (Q2 : 0 <= b64 (m - b64 (p' * m)) <= m) by (split; [apply (rnd_nonneg _ b64_rounding); lra|apply (rnd_le _ b64_rounding); [lra|exact Gr]]).
      set (ns := b64 (m - b64 (p' * m))) in *.
      pose proof (near_time B (x' - ns) ltac:(lra)) as N3. apply Rabs_le_inv in N3.
      assert (K : - (16 * w) <= p' * m - p * m <= 16 * w).
      { replace (p' * m - p * m) with ((p' - p) * m) by ring. split.
        - apply Rle_trans with (- (4 * u64) * m); [lra|apply Rmult_le_compat_r; lra].
        - apply Rle_trans with (4 * u64 * m); [apply Rmult_le_compat_r; lra|lra]. }
      apply Rabs_le. lra.
    + assert (PX : 0 <= p' * x' <= x') by (split; [apply Rmult_le_pos; lra|rewrite <- (Rmult_1_l x') at 2; apply Rmult_le_compat_r; lra]).
      pose proof (near_time B (p' * x') ltac:(lra)) as N1. apply Rabs_le_inv in N1.
      assert (K : - (16 * w) <= p' * x' - p * x' <= 16 * w).
      { replace (p' * x' - p * x') with ((p' - p) * x') by ring. split.
        - apply Rle_trans with (- (4 * u64) * x'); [lra|apply Rmult_le_compat_r; lra].
        - apply Rle_trans with (4 * u64 * x'); [apply Rmult_le_compat_r; lra|lra]. }
      assert (K2 : Rabs (p * x - p * x') <= e).
      { replace (p * x - p * x') with (p * (x - x')) by ring. rewrite Rabs_mult, (Rabs_pos_eq p) by lra. pose proof (Rabs_pos (x - x')).
        apply Rle_trans with (1 * Rabs (x - x')); [apply Rmult_le_compat_r; lra|lra]. }
      apply Rabs_le_inv in K2. apply Rabs_le. lra.
Qed.

Lemma merge_near : forall s s' m e, 0 <= s' <= 4 * B -> 0 <= m <= 1 -> Rabs (s - s') <= e -> Rabs (s * (1 - m) - b64 (s' * b64 (1 - m))) <= e + 9 * w
  /\ 0 <= b64 (s' * b64 (1 - m)) <= 4 * B + 4 * w + eta64 /\ (0 <= s -> 0 <= s * (1 - m)).
Proof.
  intros s s' m e Hs Hm He. destruct (w_pos dT B D0 D1) as (W0 & W1 & E0 & E1 & E2 & P). destruct eta_u as (_ & Eu).
  destruct (u_times B s' Hs) as (U1 & U2).
  pose proof (b64_near (1 - m) 1 ltac:(rewrite Rabs_pos_eq; lra)) as N1.
  assert (H : 0 <= b64 (1 - m) <= 1) by (split; [apply (rnd_nonneg _ b64_rounding); lra|apply (rnd_le _ b64_rounding); [lra|apply (rnd_1 _ b64_rounding)]]).
  set (q := b64 (1 - m)) in *.
  assert (Q : 0 <= s' * q <= s') by (split; [apply Rmult_le_pos; lra|rewrite <- (Rmult_1_r s') at 2; apply Rmult_le_compat_l; lra]).
  pose proof (near_time B (s' * q) ltac:(lra)) as N2. apply Rabs_le_inv in N2.
  assert (Q0 : 0 <= b64 (s' * q)) by (apply (rnd_nonneg _ b64_rounding); lra).
  split; [|split; [lra|intros; apply Rmult_le_pos; lra]].
  assert (A1 : Rabs (s * (1 - m) - s' * (1 - m)) <= e).
  { replace (s * (1 - m) - s' * (1 - m)) with ((s - s') * (1 - m)) by ring. rewrite Rabs_mult, (Rabs_pos_eq (1 - m)) by lra. pose proof (Rabs_pos (s - s')).
    apply Rle_trans with (Rabs (s - s') * 1); [apply Rmult_le_compat_l; lra|lra]. }
  assert (A2 : Rabs (s' * (1 - m) - s' * q) <= 4 * w + w / 100).
  { replace (s' * (1 - m) - s' * q) with (- (s' * (q - (1 - m)))) by ring. rewrite Rabs_Ropp, Rabs_mult, (Rabs_pos_eq s') by lra.
    apply Rle_trans with (s' * (1001 / 1000 * u64 * 1)); [apply Rmult_le_compat_l; [lra|]; lra|]. lra. }
  apply Rabs_le_inv in A1. apply Rabs_le_inv in A2. apply Rabs_le. lra.
Qed.

Definition reclock (s : cpst) (t : R) : cpst :=
  MkCP (c_lp s) (c_rp s) (c_shift s) (c_cur s) (c_merge s) (c_li s) (c_ri s) t (c_lastLeft s) (c_ub s).

Lemma step_same : forall nl nr sf k nx s q d, Rabs (c_prev s - q) <= d -> Rabs q <= 2 * B -> Rabs (st_time (t_step nx)) <= B ->
  d + 100 * w <= del ->
  let x := st_time (t_step nx) - c_prev s in let sup := support g (Nat.eqb k 2 && negb sf) x in
  del < Rabs x -> off_ties dT del x -> (g_pause g = true -> del < Rabs (x - g_maxStep g)) -> off_ties dT del sup ->
  (Nat.eqb k 2 = false -> off_ties dT del (sup * (1 - g_mrBegin g)) /\ off_ties dT del (sup * (1 - g_mrEnd g))) ->
  match cp_step g dT (g_nomStep g - g_switchPct g * g_nomStep g) nl nr sf k nx s, cp_step_r b64 g' dT (nominal_swing_r b64 g') nl nr sf k nx (reclock s q) with
  | Ok a, Ok b => b = reclock a (c_prev b) /\ Rabs (c_prev a - c_prev b) <= d + 6 * w /\ Rabs (c_prev b) <= 2 * B
                  /\ c_prev a = c_prev s + IZR (Zfloor (x / dT + / 2)) * dT
  | Fail, Fail => True
  | UB, UB => True
  | _, _ => False
  end.
Proof.
  intros nl nr sf k nx s q d Hq Bq Ht Hd x sup C1 C2 C3 C4 C5. destruct (w_pos dT B D0 D1) as (W0 & W1 & E0 & E1 & E2 & P). destruct eta_u as (_ & Eu).
  set (t := st_time (t_step nx)) in *. unfold cp_step, cp_step_r. cbn [reclock c_prev]. fold t. fold x. set (x' := b64 (t - q)).
  assert (Del : del < dT).
  { pose proof (C2 (Zfloor (x / dT))) as Q. pose proof (Zfloor_lb (x / dT)) as F1. pose proof (Zfloor_ub (x / dT)) as F2. set (z := IZR (Zfloor (x / dT))) in *.
    assert (A1 : z * dT <= x) by (replace x with (x / dT * dT) by (field; lra); apply Rmult_le_compat_r; lra).
    assert (A2 : x <= (z + 1) * dT) by (replace x with (x / dT * dT) by (field; lra); apply Rmult_le_compat_r; lra).
    eapply Rlt_le_trans; [exact Q|]. apply Rabs_le. lra. }
  assert (X : Rabs (x - x') <= d + 4 * w).
  { apply Rabs_le_inv in Hq. pose proof Bq as Bq'. apply Rabs_le_inv in Bq'. apply Rabs_le_inv in Ht.
    pose proof (b64_near (t - q) (3 * B) ltac:(apply Rabs_le; lra)) as N1. fold x' in N1. apply Rabs_le_inv in N1. replace (u64 * (3 * B)) with (3 * w) in N1 by ring.
    unfold x. apply Rabs_le. lra. }
  pose proof X as Xi. apply Rabs_le_inv in Xi.
  assert (Sg : Rltb x 0 = Rltb x' 0). { unfold Rabs in C1. destruct (Rcase_abs x); rcases; auto; lra. }
  rewrite <- Sg. destruct (Rltb x 0) eqn:Sx; [exact Logic.I|]. assert (X0' : 0 <= x') by (symmetry in Sg; apply Rltb_false in Sg; lra). apply Rltb_false in Sx.
  assert (X4' : x' <= 3 * B + 4 * w).
  { apply Rabs_le_inv in Ht. apply Rabs_le_inv in Bq. pose proof (b64_near (t - q) (3 * B) ltac:(apply Rabs_le; lra)) as N1. fold x' in N1. apply Rabs_le_inv in N1. replace (u64 * (3 * B)) with (3 * w) in N1 by ring. lra. }
  assert (X4 : 0 <= x <= 4 * B) by lra.
  pose proof (support_near (Nat.eqb k 2) sf x x' (d + 4 * w) X4 ltac:(lra) X ltac:(intros Hp; specialize (C3 Hp); lra)) as SN.
  assert (Es : switch_time g (g_nomStep g - g_switchPct g * g_nomStep g) (Nat.eqb k 2) sf x = sup).
  { unfold switch_time, sup, support. destruct shares as (Hp & _). destruct (_ && negb sf); [fold p; field; lra|]. unfold Rgtb. destruct (_ && _); ring. }
  rewrite Es in *. set (s' := switch_time_r b64 g' (nominal_swing_r b64 g') (Nat.eqb k 2) sf x') in *.
  destruct (switch_bounds _ b64_rounding g' G (Nat.eqb k 2) sf x' X0' (r_idem _ b64_rounding _)) as (S0 & S1). fold s' in S0, S1.
  assert (S2 : 0 <= sup).
  { pose proof (C4 (-1)%Z) as Q. unfold Rabs in Q, SN. destruct (Rle_lt_dec 0 sup) as [L|L]; [exact L|exfalso].
    pose proof shares as (Hp & _). unfold sup, support in L. fold p in L. destruct (_ && _).
    - assert (0 <= p / (2 - p) * x) by (apply Rmult_le_pos; [apply div_nonneg; lra|lra]). lra.
    - destruct (g_pause g && Rltb (g_maxStep g) x) eqn:Ep.
      + apply andb_prop in Ep. destruct Ep as (_ & Ep). apply Rltb_true in Ep. destruct N as (_ & Nx & Nn & _). pose proof (gr_nom _ _ G) as Gn. rewrite Nx, Nn in Gn.
        assert ((1 - p) * g_nomStep g <= 1 * g_nomStep g) by (apply Rmult_le_compat_r; lra). lra.
      + assert (0 <= p * x) by (apply Rmult_le_pos; lra). lra. }
  destruct (samples_same x x' (d + 4 * w) Sx ltac:(lra) X ltac:(lra) C2) as (A1 & A2).
  destruct (samples_same sup s' (d + 74 * w) S2 ltac:(lra) ltac:(lra) ltac:(lra) C4) as (A3 & A4).
  set (n := nround (x / dT)) in *. set (m := nround (sup / dT)) in *.
  rewrite A1, A2, A3, A4. cbn [rbind]. destruct (sub_size n m) as [sw| |]; cbn [rbind]; [|exact Logic.I|exact Logic.I].
  cbv zeta. cbn [reclock c_li c_ri c_ub c_cur c_lp c_rp c_shift c_merge].
  assert (CK : Rabs (b64 (q + b64 (b64 (INR n) * dT)) - (q + INR n * dT)) <= 6 * w /\ Rabs (b64 (q + b64 (b64 (INR n) * dT))) <= 2 * B).
  { assert (En : n = n_step b64 dT x'). { unfold n_step. rewrite size_round_ok in A2 by (apply (rnd_nonneg _ b64_rounding), div_nonneg; lra). injection A2 as A2. auto. }
    rewrite En. destruct (clock_step dT B D0 D1 D2 q t Bq Ht X0') as (_ & K2 & K3). auto. }
  assert (NF : INR n = IZR (Zfloor (x / dT + / 2))).
  { unfold n, nround, Rround. assert (0 <= x / dT) by (apply div_nonneg; lra). destruct (Rlt_dec (x / dT) 0); [lra|]. rewrite INR_IZR_INZ, Z2Nat.id; auto. apply Zfloor_lub. simpl. lra. }
  assert (CL : forall c, c = b64 (q + b64 (b64 (INR n) * dT)) -> Rabs (c_prev s + INR n * dT - c) <= d + 6 * w).
  { intros c ->. destruct CK as (K1 & _). apply Rabs_le_inv in K1. apply Rabs_le_inv in Hq. apply Rabs_le. lra. }
  destruct (negb (t_left nx && Nat.eqb (t_idx nx) (c_li s)) && negb (negb (t_left nx) && Nat.eqb (t_idx nx) (c_ri s))); [exact Logic.I|].
  destruct (Nat.eqb k 2) eqn:Ek.
  - cbn [rbind]. split; [reflexivity|]. cbn [c_prev]. split; [apply CL; reflexivity|]. split; [apply CK|]. rewrite NF. reflexivity.
  - destruct (C5 eq_refl) as (C6 & C7). destruct N as (_ & _ & _ & _ & Nb & Ne & _). rewrite Nb, Ne. destruct (gr_mr _ _ G) as ((R1 & R2) & R3). rewrite Nb, Ne in *.
    destruct (merge_near sup s' (g_mrBegin g) (d + 74 * w) ltac:(lra) ltac:(lra) ltac:(lra)) as (M1 & M2 & M3).
    destruct (merge_near sup s' (g_mrEnd g) (d + 74 * w) ltac:(lra) ltac:(lra) ltac:(lra)) as (M4 & M5 & M6).
    assert (O : forall r, 0 <= r <= 1 -> b64 (s' * b64 (1 - r)) <= s').
    { intros r Hr. apply (off_bounds _ b64_rounding); auto. unfold s'. apply (switch_rnd _ b64_rounding). }
    destruct (samples_same (sup * (1 - g_mrBegin g)) (b64 (s' * b64 (1 - g_mrBegin g))) (d + 83 * w) (M3 S2) ltac:(pose proof (O (g_mrBegin g)); lra) ltac:(lra) ltac:(lra) C6) as (B1 & B2).
    destruct (samples_same (sup * (1 - g_mrEnd g)) (b64 (s' * b64 (1 - g_mrEnd g))) (d + 83 * w) (M6 S2) ltac:(pose proof (O (g_mrEnd g)); lra) ltac:(lra) ltac:(lra) C7) as (B3 & B4).
    rewrite B1, B2, B3, B4. cbn [rbind].
    destruct (sub_size (c_cur s + m) (nround (sup * (1 - g_mrBegin g) / dT))) as [mi| |]; cbn [rbind]; [|exact Logic.I|exact Logic.I].
    destruct (sub_size (c_cur s + m) (nround (sup * (1 - g_mrEnd g) / dT))) as [mf| |]; cbn [rbind]; [|exact Logic.I|exact Logic.I].
    split; [reflexivity|]. cbn [c_prev]. split; [apply CL; reflexivity|]. split; [apply CK|]. rewrite NF. reflexivity.
Qed.

Lemma loop_same : forall nl nr sf tl k s q d, (2 <= k)%nat -> Rabs (c_prev s - q) <= d -> Rabs q <= 2 * B ->
  (forall t, In t tl -> Rabs (st_time (t_step t)) <= B) -> d + INR (length tl) * (6 * w) + 100 * w <= del ->
  settled g dT del (negb sf) (Nat.eqb k 2) (c_prev s) (map (fun t => st_time (t_step t)) tl) ->
  match cp_loop g dT (g_nomStep g - g_switchPct g * g_nomStep g) nl nr sf k tl s, cp_loop_r b64 g' dT (nominal_swing_r b64 g') nl nr sf k tl (reclock s q) with
  | Ok a, Ok b => b = reclock a (c_prev b)
  | Fail, Fail => True
  | UB, UB => True
  | _, _ => False
  end.
Proof.
  intros nl nr sf tl. induction tl as [|nx tl IH]; intros k s q d Hk Hq Bq Ht Hd Hs; [reflexivity|].
  cbn [map settled] in Hs. destruct Hs as (C1 & C2 & C3 & C4 & C5 & C6). cbn [cp_loop cp_loop_r]. destruct (w_pos dT B D0 D1) as (W0 & _).
  change (length (nx :: tl)) with (S (length tl)) in Hd. rewrite S_INR in Hd. assert (L0 : 0 <= INR (length tl) * (6 * w)) by (apply Rmult_le_pos; [apply pos_INR|lra]).
  pose proof (step_same nl nr sf k nx s q d Hq Bq (Ht nx (or_introl eq_refl)) ltac:(lra) C1 C2 C3 C4 C5) as Q.
  destruct (cp_step g dT _ nl nr sf k nx s) as [a| |], (cp_step_r b64 g' dT _ nl nr sf k nx (reclock s q)) as [b| |]; cbn [rbind]; try contradiction; auto.
  destruct Q as (-> & Q1 & Q2 & Q3). cbn [reclock c_prev] in Q1, Q2 |- *.
  assert (Ek : Nat.eqb (S k) 2 = false) by (apply Nat.eqb_neq; lia).
  apply (IH (S k) a _ (d + 6 * w)); auto; [intros; apply Ht; right; auto|lra|]. rewrite Ek, Q3. exact C6.
Qed.

Lemma create_same : forall init nl nr fl fr ord, Rabs init <= B -> g_endSwitch g <= B -> (forall t, In t (planned ord) -> init <= st_time (t_step t) <= B) ->
  INR (length (planned ord)) * (6 * w) + 100 * w <= del -> off_ties dT del (g_endSwitch g) ->
  settled g dT del (negb (Reqb fl fr)) true init (impacts ord) ->
  create_phases_r b64 g' dT init nl nr fl fr ord = create_phases g dT init nl nr fl fr ord.
Proof.
  intros init nl nr fl fr ord Hi Hes Ht Hd He Hs. destruct (w_pos dT B D0 D1) as (W0 & W1 & E0 & E1 & E2 & P).
  assert (Hd0 : 0 <= INR (length (planned ord)) * (6 * w)) by (apply Rmult_le_pos; [apply pos_INR|lra]).
  pose proof N as NN. destruct NN as (Ne & _). pose proof (good_end _ E) as Ge.
  destruct (samples_same (g_endSwitch g) (g_endSwitch g) 0 ltac:(lra) ltac:(lra) ltac:(rewrite Rminus_eq_0, Rabs_R0; lra) ltac:(lra) He) as (A1 & A2).
  destruct ord as [|a [|b [|c tl]]]; try reflexivity.
  - cbn [create_phases create_phases_r]. rewrite Ne, A1, A2. reflexivity.
  - cbn [create_phases create_phases_r]. set (pl := c :: tl) in *. change (planned (a :: b :: pl)) with pl in *. unfold impacts in Hs. change (planned (a :: b :: pl)) with pl in Hs.
    set (lt := st_time (t_step (last (a :: b :: pl) (hd (MkT true 0 (MkStep vzero 0 0 "")) (a :: b :: pl))))).
    assert (L : init <= lt).
    { assert (Q : forall l (y d : tstep), In (last (y :: l) d) (y :: l)) by (induction l as [|z l IH]; intros y d; [left; reflexivity|right; apply IH]).
      unfold lt. change (last (a :: b :: pl) ?d) with (last pl d). apply Ht. apply Q. }
    rewrite Ne.
    assert (C1 : exists z, size_ceil ((lt - init + g_endSwitch g) / dT) = Ok z).
    { apply ceil_ok. apply div_nonneg; lra. }
    assert (C2 : exists z, size_ceil (b64 (b64 (b64 (lt - init) + g_endSwitch g) / dT)) = Ok z).
    { assert (K0 : 0 <= b64 (lt - init)) by (apply (rnd_nonneg _ b64_rounding); lra).
      assert (K1 : 0 <= b64 (b64 (lt - init) + g_endSwitch g)) by (apply (rnd_nonneg _ b64_rounding); lra).
      assert (K2 : 0 <= b64 (b64 (b64 (lt - init) + g_endSwitch g) / dT)) by (apply (rnd_nonneg _ b64_rounding), div_nonneg; lra).
      apply ceil_ok. exact K2. }
    destruct C1 as (z1 & ->). destruct C2 as (z2 & ->). cbn [rbind].
    set (s0 := MkCP [] [] [0%nat] 0 [0%nat] 1 1 init None false).
    assert (LS : match cp_loop g dT (g_nomStep g - g_switchPct g * g_nomStep g) nl nr (Reqb fl fr) 2 pl s0, cp_loop_r b64 g' dT (nominal_swing_r b64 g') nl nr (Reqb fl fr) 2 pl s0 with
      | Ok a, Ok b => b = reclock a (c_prev b) | Fail, Fail => True | UB, UB => True | _, _ => False end).
    { change s0 with (reclock s0 init) at 2. apply (loop_same nl nr (Reqb fl fr) pl 2 s0 init 0); auto.
      - cbn [s0 c_prev]. rewrite Rminus_eq_0, Rabs_R0. lra.
      - lra.
      - intros t Hin. apply Ht in Hin. apply Rabs_le. apply Rabs_le_inv in Hi. lra.
      - lra. }
    destruct (cp_loop g dT _ nl nr _ 2 pl s0) as [x| |], (cp_loop_r b64 g' dT _ nl nr _ 2 pl s0) as [y| |]; try contradiction; cbn [rbind]; auto.
    rewrite LS, A1, A2. cbn [rbind reclock c_lastLeft c_cur c_lp c_rp c_shift c_merge c_ub]. reflexivity.
Qed.

Lemma generate_same : forall left right init srt ord, Rabs init <= B -> g_endSwitch g <= B -> order_steps srt = Ok ord ->
  (forall t, In t (planned ord) -> init <= st_time (t_step t) <= B) ->
  INR (length (planned ord)) * (6 * w) + 100 * w <= del -> off_ties dT del (g_endSwitch g) ->
  (forall l r, hd_error (fp_steps left) = Some l -> hd_error (fp_steps right) = Some r -> settled g dT del (negb (Reqb (st_time l) (st_time r))) true init (impacts ord)) ->
  generate_phases_r b64 g' left right init dT srt = generate_phases g left right init dT srt.
Proof.
  intros left right init srt ord Hi Hes Ho Ht Hd He Hs. unfold generate_phases_r, generate_phases.
  repeat match goal with |- (if ?b then _ else _) = _ => destruct b; [reflexivity|] end.
  destruct (fp_steps left) as [|l0 l]; [reflexivity|]. destruct (fp_steps right) as [|r0 r]; [reflexivity|].
  destruct (Rltb init _); [reflexivity|]. rewrite Ho. cbn [rbind]. rewrite (create_same init _ _ _ _ ord); auto.
Qed.
End Same.
