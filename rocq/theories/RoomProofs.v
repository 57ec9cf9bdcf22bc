(** When no phase of the computation in doubles is empty. *)
From Coq Require Import String Reals Lra Lia ZArith List Bool Sorting.Sorted Sorting.Permutation.
From Flocq Require Import Core.
From Verif Require Import Prelude Rounding FootPrint GenPhases GenSpec GenProofs GenProofs2 GenProofs3 GenProofs4 FeetSpec RoundedGen RoundedGenSpec RoundedGenProofs RoundedGenProofs2
  RoundedGenProofs3 RoundedGenProofs4.
Import ListNotations.
Open Scope R_scope.

(** The share of the double support is a double. *)
Lemma share64 : forall ops, List.Forall gop_b64 ops -> b64 (g_switchPct (settings64 ops)) = g_switchPct (settings64 ops).
Proof.
  intros ops H. unfold settings64.
  assert (Q : forall g, b64 (g_switchPct g) = g_switchPct g -> b64 (g_switchPct (fold_left (gset_run_r b64) ops g)) = g_switchPct (fold_left (gset_run_r b64) ops g)).
  { induction H as [|o ops Ho _ IH]; intros g Hg; [exact Hg|]. cbn [fold_left]. apply IH. destruct o; cbn [gset_run_r gset_run fst]; auto.
    - unfold set_switchRatio_r. rcases; cbn [fst g_switchPct]; auto. apply (r_idem _ b64_rounding).
    - unfold set_terminalSwitch. rcases; auto.
    - unfold set_pauseConditions. rcases; auto.
    - unfold set_mergeRatio. rcases; auto. }
  apply Q. apply (r_half _ b64_rounding).
Qed.

Section Room.
Variables (g : gset) (dT init B : R).
Hypothesis G : good_r b64 g.
Hypothesis GP : b64 (g_switchPct g) = g_switchPct g.
Hypothesis D0 : bpow radix2 (-900) <= dT.
Hypothesis D1 : dT <= B.
Hypothesis D2 : B <= bpow radix2 50 * dT.
Hypothesis I0 : Rabs init <= B.
Notation w := (u64 * B).

Lemma w_pos : 0 < w /\ 1000000 * w <= B /\ 0 <= eta64 /\ 1000 * eta64 <= w /\ 1000 * (eta64 * dT) <= w /\ 0 < dT.
Proof.
  pose proof (dT_pos dT D0) as P. destruct (w_small dT B D0 D1) as (_ & W). destruct (eta_small dT B D0 D1) as (E0 & E1 & E2).
  split; [rewrite u64_val; apply Rmult_lt_0_compat; lra|auto].
Qed.

Lemma u_times : forall x, 0 <= x <= 4 * B -> u64 * x <= 4 * w /\ 0 <= u64 * x.
Proof.
  intros x H. assert (0 <= u64) by (rewrite u64_val; lra). split; [|apply Rmult_le_pos; lra].
  replace (4 * w) with (u64 * (4 * B)) by ring. apply Rmult_le_compat_l; lra.
Qed.
(** Rounding a time. *)
Lemma near_time : forall x, 0 <= x <= 4 * B -> Rabs (b64 x - x) <= 4 * w + eta64.
Proof.
  intros x H. destruct (u_times x H). pose proof (b64_near x x) as N. rewrite Rabs_pos_eq in N by lra. specialize (N (Rle_refl _)). lra.
Qed.

Lemma samples_lt : forall s x, 0 <= s -> s + dT + 9 * w <= x -> x <= 4 * B -> (n_step b64 dT s < n_step b64 dT x)%nat.
Proof.
  intros s x Hs H Hx. destruct w_pos as (W0 & W1 & E0 & E1 & E2 & P).
  assert (A : forall y, 0 <= y <= 4 * B -> - (4 * w + eta64 * dT) <= b64 (y / dT) * dT - y <= 4 * w + eta64 * dT /\ 0 <= b64 (y / dT)).
  { intros y Hy. assert (Y : 0 <= y / dT) by (apply div_nonneg; lra). destruct (u_times y Hy).
    pose proof (b64_near (y / dT) (y / dT)) as N. rewrite Rabs_pos_eq in N by lra. specialize (N (Rle_refl _)). apply Rabs_le_inv in N.
    split; [|apply (rnd_nonneg _ b64_rounding); auto].
    assert (Q1 : (b64 (y / dT) - y / dT) * dT <= (u64 * (y / dT) + eta64) * dT) by (apply Rmult_le_compat_r; lra).
    assert (Q2 : - (u64 * (y / dT) + eta64) * dT <= (b64 (y / dT) - y / dT) * dT) by (apply Rmult_le_compat_r; lra).
    replace ((b64 (y / dT) - y / dT) * dT) with (b64 (y / dT) * dT - y) in Q1, Q2 by (field; lra).
    replace ((u64 * (y / dT) + eta64) * dT) with (u64 * y + eta64 * dT) in Q1 by (field; lra).
    replace (- (u64 * (y / dT) + eta64) * dT) with (- (u64 * y + eta64 * dT)) in Q2 by (field; lra). lra. }
  destruct (A s ltac:(lra)) as (A1 & A2). destruct (A x ltac:(lra)) as (B1 & B2).
  destruct (nround_bounds _ A2) as (N1 & N2). destruct (nround_bounds _ B2) as (M1 & M2).
  fold (n_step b64 dT s) in N1, N2. fold (n_step b64 dT x) in M1, M2. apply INR_lt.
  assert (Q : b64 (s / dT) + 1 < b64 (x / dT)).
  { apply (Rmult_lt_reg_r dT); auto. lra. }
  lra.
Qed.
Lemma samples_pos : forall s, dT <= 2 * s -> (1 <= n_step b64 dT s)%nat.
Proof.
  intros s H. destruct w_pos as (_ & _ & _ & _ & _ & P). unfold n_step.
  assert (H2 : 1 / 2 <= b64 (s / dT)).
  { apply (rnd_ge _ b64_rounding); [|apply (r_half _ b64_rounding)]. apply (Rmult_le_reg_r dT); auto. field_simplify; lra. }
  destruct (nround_bounds (b64 (s / dT))) as [_ Q]; [lra|]. destruct (nround _); [simpl in Q; lra|lia].
Qed.

(** The double support of the first step. *)
Lemma first_factor : let p := g_switchPct g in let r := b64 (p / b64 (1 - b64 (p / 2))) in
  p <= r <= 2 /\ r <= p / (1 - p / 2) + 13 * u64.
Proof.
  cbv zeta. set (p := g_switchPct g) in *. pose proof (gr_pct _ _ G) as P. fold p in P.
  assert (U : u64 = / 9007199254740992) by apply u64_val.
  assert (E : 1000 * eta64 <= u64).
  { assert (E : eta64 * 1000 <= u64 * 1); [|lra]. unfold eta64, u64. rewrite Rmult_1_r.
    assert (H : bpow radix2 (-1074) * bpow radix2 10 <= bpow radix2 (-52)) by (rewrite <- bpow_plus; apply bpow_le; lia).
    assert (B10 : bpow radix2 10 = 1024) by reflexivity. rewrite B10 in H. pose proof (bpow_ge_0 radix2 (-1074)). lra. }
  pose proof eta64_pos as E0.
  pose proof (b64_near (p / 2) 1 ltac:(rewrite Rabs_pos_eq; lra)) as N1. apply Rabs_le_inv in N1.
  assert (H1 : 0 <= b64 (p / 2) <= 1 / 2) by (split; [apply (rnd_nonneg _ b64_rounding); lra|apply (rnd_le _ b64_rounding); [lra|apply (r_half _ b64_rounding)]]).
  pose proof (b64_near (1 - b64 (p / 2)) 1 ltac:(rewrite Rabs_pos_eq; lra)) as N2. apply Rabs_le_inv in N2.
  assert (H2 : 1 / 2 <= b64 (1 - b64 (p / 2)) <= 1).
  { split; [apply (rnd_ge _ b64_rounding); [lra|apply (r_half _ b64_rounding)]|apply (rnd_le _ b64_rounding); [lra|apply (rnd_1 _ b64_rounding)]]. }
  set (q := b64 (1 - b64 (p / 2))) in *.
  assert (Hq : 1 - p / 2 - q <= 5 / 2 * u64) by lra.
  assert (H3 : p / q <= 2) by (apply (Rmult_le_reg_r q); [lra|]; field_simplify; lra).
  assert (H4 : p <= p / q) by (apply (Rmult_le_reg_r q); [lra|]; field_simplify; [nra|lra]).
  pose proof (b64_near (p / q) 2 ltac:(rewrite Rabs_pos_eq; lra)) as N3. apply Rabs_le_inv in N3.
  split; [split|].
  - pose proof GP as E4. fold p in E4. rewrite <- E4 at 1. apply (r_mono _ b64_rounding). exact H4.
  - apply (rnd_le _ b64_rounding); [exact H3|apply (rnd_2 _ b64_rounding)].
  - assert (K : p / q <= p / (1 - p / 2) + 10 * u64); [|lra].
    assert (I1 : / q - / (1 - p / 2) = (1 - p / 2 - q) * (/ q * / (1 - p / 2))) by (field; lra).
    assert (Q1 : 0 < / q <= 2) by (split; [apply Rinv_0_lt_compat; lra|replace 2 with (/ (1 / 2)) by field; apply Rinv_le_contravar; lra]).
    assert (Q2 : 0 < / (1 - p / 2) <= 2) by (split; [apply Rinv_0_lt_compat; lra|replace 2 with (/ (1 / 2)) by field; apply Rinv_le_contravar; lra]).
    assert (Q3 : 0 <= / q * / (1 - p / 2) <= 4) by (split; [apply Rmult_le_pos; lra|replace 4 with (2 * 2) by ring; apply Rmult_le_compat; lra]).
    assert (Q4 : (1 - p / 2 - q) * (/ q * / (1 - p / 2)) <= 10 * u64).
    { destruct (Rle_lt_dec 0 (1 - p / 2 - q)).
      - replace (10 * u64) with (5 / 2 * u64 * 4) by lra. apply Rmult_le_compat; lra.
      - assert ((1 - p / 2 - q) * (/ q * / (1 - p / 2)) <= 0 * (/ q * / (1 - p / 2))) by (apply Rmult_le_compat_r; lra). lra. }
    assert (Q5 : p * (/ q - / (1 - p / 2)) <= 10 * u64).
    { rewrite I1. destruct (Rle_lt_dec 0 ((1 - p / 2 - q) * (/ q * / (1 - p / 2)))).
      - apply Rle_trans with (1 * ((1 - p / 2 - q) * (/ q * / (1 - p / 2)))); [apply Rmult_le_compat_r; lra|lra].
      - assert (p * ((1 - p / 2 - q) * (/ q * / (1 - p / 2))) <= p * 0) by (apply Rmult_le_compat_l; lra). lra. }
    unfold Rdiv in *. lra.
Qed.

(** Both parts of a step of length [x] get a sample. *)
Lemma parts : forall f sf x, b64 x = x -> 0 <= x <= 3 * B + 4 * w ->
  let p := g_switchPct g in
  dT + 47 * w <= p * x -> dT + 47 * w <= (1 - p) * x ->
  (g_pause g = true -> g_maxStep g < x -> dT + 47 * w <= p * g_nomStep g /\ dT + 47 * w <= (1 - p) * g_nomStep g) ->
  let s := switch_time_r b64 g (nominal_swing_r b64 g) f sf x in
  (1 <= n_step b64 dT s)%nat /\ (n_step b64 dT s < n_step b64 dT x)%nat.
Proof.
  intros f sf x Rx Hx p H1 H2 H3 s. destruct w_pos as (W0 & W1 & E0 & E1 & E2 & P). pose proof (gr_pct _ _ G) as Pp. fold p in Pp.
  assert (X4 : 0 <= x <= 4 * B) by lra. destruct (u_times x X4) as (U1 & U2).
  assert (PX : 0 <= p * x <= x) by (split; [apply Rmult_le_pos; lra|rewrite <- (Rmult_1_l x) at 2; apply Rmult_le_compat_r; lra]).
  destruct (switch_bounds _ b64_rounding g G f sf x) as (S0 & S1); [lra|exact Rx|]. fold s in S0, S1.
  assert (K : dT <= 2 * s /\ s + dT + 9 * w <= x).
  { unfold s, switch_time_r. fold p. destruct (f && negb sf).
    - destruct first_factor as ((F1 & F2) & F3). fold p in F1, F2, F3. set (r := b64 (p / b64 (1 - b64 (p / 2)))) in *.
      assert (R1 : p * x <= r * x) by (apply Rmult_le_compat_r; lra).
      assert (R2 : r * x <= 2 * x) by (apply Rmult_le_compat_r; lra).
      assert (R3 : r * x <= (p / (1 - p / 2) + 13 * u64) * x) by (apply Rmult_le_compat_r; lra).
      assert (R4 : p / (1 - p / 2) * x <= 2 * (p * x) ).
      { replace (p / (1 - p / 2) * x) with (p * x * (/ (1 - p / 2))) by (field; lra). rewrite (Rmult_comm 2). apply Rmult_le_compat_l; [lra|].
        replace 2 with (/ (1 / 2)) by field. apply Rinv_le_contravar; lra. }
      pose proof (b64_near (r * x) (8 * B) ltac:(rewrite Rabs_pos_eq; lra)) as N1. apply Rabs_le_inv in N1.
      replace (u64 * (8 * B)) with (8 * w) in N1 by ring. set (y := b64 (r * x)) in *.
      assert (Y0 : 0 <= y) by (apply (rnd_nonneg _ b64_rounding); lra).
      pose proof (near_time (y / 2) ltac:(lra)) as N2. apply Rabs_le_inv in N2. split; [lra|].
      (* the swing *)
      assert (R5 : p / (1 - p / 2) * x / 2 <= p * x).
      { lra. }
      assert (R6 : 13 * u64 * x <= 52 * w) by (replace (13 * u64 * x) with (13 * (u64 * x)) by ring; lra).
      lra.
    - destruct (g_pause g && Rgtb x (g_maxStep g)) eqn:Ep.
      + apply andb_prop in Ep. destruct Ep as (Ep & Eg). unfold Rgtb in Eg. apply Rltb_true in Eg.
        destruct (H3 Ep Eg) as (H4 & H5). pose proof (gr_nom _ _ G) as Gn. set (m := g_nomStep g) in *.
        assert (PM : 0 <= p * m <= m) by (split; [apply Rmult_le_pos; lra|rewrite <- (Rmult_1_l m) at 2; apply Rmult_le_compat_r; lra]).
        pose proof (near_time (p * m) ltac:(lra)) as N1. apply Rabs_le_inv in N1.
        assert (Q : 0 <= b64 (p * m) <= m).
        { split; [apply (rnd_nonneg _ b64_rounding); lra|apply (rnd_le _ b64_rounding); [lra|apply (gr_rnom _ _ G)]]. }
        unfold nominal_swing_r. fold p m. pose proof (near_time (m - b64 (p * m)) ltac:(lra)) as N2. apply Rabs_le_inv in N2.
        pose proof (nominal_bounds _ b64_rounding g G) as NB. unfold nominal_swing_r in NB. fold p m in NB. set (ns := b64 (m - b64 (p * m))) in *.
        pose proof (near_time (x - ns) ltac:(lra)) as N3. apply Rabs_le_inv in N3. split; lra.
      + pose proof (near_time (p * x) ltac:(lra)) as N1. apply Rabs_le_inv in N1. split; lra. }
  split; [apply samples_pos; apply K|apply samples_lt; lra].
Qed.

(** The conditions: the first step comes [lead] after the beginning, the steps are [gap] apart. *)
Definition roomy (lead gap : R) : Prop :=
  let p := g_switchPct g in let e := 64 * w in
  dT + e <= p * lead /\ dT + e <= (1 - p) * lead
  /\ dT + e <= p * (gap - dT / 2) /\ dT + e <= (1 - p) * (gap - dT / 2)
  /\ (g_pause g = true -> dT + e <= p * g_nomStep g /\ dT + e <= (1 - p) * g_nomStep g).

Lemma step_room : forall nl nr sf k nx s s' y, Rabs (c_prev s) <= 2 * B -> Rabs (st_time (t_step nx)) <= B ->
  y - 13 * w <= st_time (t_step nx) - c_prev s ->
  let p := g_switchPct g in let e := 64 * w in dT + e <= p * y -> dT + e <= (1 - p) * y ->
  (g_pause g = true -> dT + e <= p * g_nomStep g /\ dT + e <= (1 - p) * g_nomStep g) ->
  cp_step_r b64 g dT (nominal_swing_r b64 g) nl nr sf k nx s = Ok s' ->
  exists n sw, advanced k nx n sw s s' /\ (1 <= sw < n)%nat.
Proof.
  intros nl nr sf k nx s s' y Hp Ht Hy p e H1 H2 H3 H. destruct w_pos as (W0 & W1 & E0 & E1 & E2 & P).
  destruct (cp_step_r_inv _ b64_rounding g G dT P _ _ _ _ _ _ _ H) as (T0 & A & _).
  apply Rabs_le_inv in Hp. apply Rabs_le_inv in Ht. set (d := st_time (t_step nx) - c_prev s) in *.
  pose proof (b64_near d (3 * B) ltac:(apply Rabs_le; unfold d; lra)) as N. apply Rabs_le_inv in N. replace (u64 * (3 * B)) with (3 * w) in N by ring.
  pose proof (gr_pct _ _ G) as Pp. fold p in Pp. set (x := b64 d) in *.
  assert (X : y - 17 * w <= x <= 3 * B + 4 * w) by (unfold d in *; lra).
  assert (M : forall q, 0 <= q <= 1 -> dT + e <= q * y -> dT + 47 * w <= q * x).
  { intros q Hq Hqy. assert (q * (y - 17 * w) <= q * x) by (apply Rmult_le_compat_l; lra).
    assert (q * (17 * w) <= 1 * (17 * w)) by (apply Rmult_le_compat_r; lra). unfold e in *. lra. }
  destruct (parts (Nat.eqb k 2) sf x) as (K1 & K2); [apply (r_idem _ b64_rounding)|lra|fold p; apply M; auto; lra|fold p; apply M; auto; lra| |].
  { intros Q _. destruct (H3 Q). fold p. unfold e in *. lra. }
  eexists. eexists. split; [exact A|]. fold x. lia.
Qed.

Lemma loop_room : forall nl nr sf lead gap tl done k s s', roomy lead gap ->
  k = (2 + length done)%nat -> InvT dT init B done s ->
  (forall t, In t tl -> Rabs (st_time (t_step t)) <= B) ->
  (forall j, (j < 2 * length done)%nat -> (sh s j < sh s (S j))%nat) ->
  match rev done with [] => spaced init lead (map t_step (firstn 1 tl)) | t :: _ => spaced (st_time (t_step t)) gap (map t_step (firstn 1 tl)) end ->
  (match tl with [] => True | t :: r => spaced (st_time (t_step t)) gap (map t_step r) end) ->
  cp_loop_r b64 g dT (nominal_swing_r b64 g) nl nr sf k tl s = Ok s' ->
  (forall j, (j < 2 * length (done ++ tl))%nat -> (sh s' j < sh s' (S j))%nat).
Proof.
  intros nl nr sf lead gap tl. induction tl as [|nx tl IH]; intros done k s s' RM Hk I Hb Hsw H1 H2 H; cbn [cp_loop_r] in H.
  - inversion H; subst. rewrite app_nil_r. auto.
  - apply rbind_ok in H. destruct H as (s1 & Hs1 & H).
    assert (I1 : InvT dT init B (done ++ [nx]) s1) by (eapply InvT_step; eauto; apply Hb; simpl; auto).
    pose proof RM as (L1 & L2 & G1 & G2 & N). destruct w_pos as (W0 & W1 & E0 & E1 & E2 & P).
    assert (A : exists n sw, advanced k nx n sw s s1 /\ (1 <= sw < n)%nat).
    { pose proof (it_last _ _ _ _ _ I) as Q. destruct (rev done) as [|t rd].
      - cbn [map firstn spaced] in H1. eapply (step_room nl nr sf k nx s s1 lead); eauto; [apply (it_bound _ _ _ _ _ I)|apply Hb; simpl; auto|lra].
      - cbn [map firstn spaced] in H1. apply Rabs_le_inv in Q.
        eapply (step_room nl nr sf k nx s s1 (gap - dT / 2)); eauto; [apply (it_bound _ _ _ _ _ I)|apply Hb; simpl; auto|lra]. }
    destruct A as (n & sw & A & Hn).
    replace (done ++ nx :: tl) with ((done ++ [nx]) ++ tl) by (rewrite <- app_assoc; reflexivity).
    apply (IH (done ++ [nx]) (S k) s1 s'); auto.
    + rewrite app_length. simpl. lia.
    + intros; apply Hb; simpl; auto.
    + rewrite app_length. cbn [length]. pose proof (it_s _ _ _ _ _ I) as IS. destruct A as (_ & _ & _ & _ & Hsh & _).
      intros j Hj. pose proof (i_len _ _ IS) as Li. pose proof (i_cur _ _ IS) as Lc. unfold sh in *. rewrite Hsh, !nth_snoc2, Li.
      destruct (Nat.lt_ge_cases j (2 * length done)) as [Hl|Hl].
      * destruct (Nat.ltb_spec (S j) (2 * length done + 1)); [|lia]. destruct (Nat.ltb_spec j (2 * length done + 1)); [|lia]. apply Hsw. lia.
      * destruct (Nat.eq_dec j (2 * length done)) as [->|].
        -- destruct (Nat.ltb_spec (S (2 * length done)) (2 * length done + 1)); [lia|]. destruct (Nat.eqb_spec (S (2 * length done)) (2 * length done + 1)); [|lia].
           destruct (Nat.ltb_spec (2 * length done) (2 * length done + 1)); [|lia]. rewrite Lc. lia.
        -- assert (j = 2 * length done + 1)%nat as -> by lia. rewrite Nat.ltb_irrefl, Nat.eqb_refl.
           destruct (Nat.ltb_spec (S (2 * length done + 1)) (2 * length done + 1)); [lia|]. destruct (Nat.eqb_spec (S (2 * length done + 1)) (2 * length done + 1)); [lia|].
           destruct (Nat.eqb_spec (S (2 * length done + 1)) (S (2 * length done + 1))); lia.
    + rewrite rev_app_distr. simpl. destruct tl as [|t2 tl]; simpl; auto. simpl in H2. tauto.
    + destruct tl as [|t2 tl]; auto. simpl in H2. tauto.
Qed.

Lemma create_room : forall nl nr fl fr ord lead gap ph, roomy lead gap -> dT <= 2 * g_endSwitch g ->
  (forall t, In t (planned ord) -> Rabs (st_time (t_step t)) <= B) ->
  match planned ord with [] => True | t :: q => init + lead <= st_time (t_step t) /\ spaced (st_time (t_step t)) gap (map t_step q) end ->
  create_phases_r b64 g dT init nl nr fl fr ord = Ok ph ->
  forall j, (S j < length (ph_shift ph))%nat -> (bnd ph j < bnd ph (S j))%nat.
Proof.
  intros nl nr fl fr [|a [|b [|c tl]]] lead gap ph RM He Hb Hsp H; try discriminate; destruct w_pos as (_ & _ & _ & _ & _ & P);
    pose proof (end_samples_r _ b64_rounding g dT G P He) as NE; pose proof (n_ok _ b64_rounding dT P (g_endSwitch g) ltac:(pose proof (gr_end _ _ G); lra)) as OE.
  - cbn [create_phases_r] in H. rewrite OE in H. cbn [rbind] in H. inversion H; subst ph. cbn [ph_shift length]. intros [|j] Hj; [|lia]. unfold bnd. cbn. lia.
  - cbn [create_phases_r planned List.tl] in H, Hb, Hsp. set (pl := c :: tl) in *.
    apply rbind_ok in H. destruct H as (tot & _ & H). apply rbind_ok in H. destruct H as (s & Hs & H).
    assert (I : InvT dT init B pl s). { change pl with ([] ++ pl). eapply InvT_loop; [exact G|exact D0|exact D1|exact D2| |apply (InvT_0 dT init B D0 D1 I0)|exact Hb|exact Hs]. reflexivity. }
    assert (SW : forall j, (j < 2 * length ([] ++ pl))%nat -> (sh s j < sh s (S j))%nat).
    { eapply loop_room; [exact RM| |apply (InvT_0 dT init B D0 D1 I0)|exact Hb| | | |exact Hs]; auto.
      - simpl. intros; lia.
      - simpl. tauto.
      - simpl. tauto. }
    cbn [app] in SW. rewrite OE in H. cbn [rbind] in H. apply rbind_ok in H. destruct H as (ml & _ & H). inversion H; subst ph; clear H.
    cbn [ph_shift]. pose proof (i_len _ _ (it_s _ _ _ _ _ I)) as Li. pose proof (i_cur _ _ (it_s _ _ _ _ _ I)) as Lc.
    rewrite app_length. cbn [length]. intros j Hj. unfold bnd. cbn [ph_shift]. unfold sh in *.
    destruct (Nat.eq_dec j (2 * length pl)) as [->|Hne].
    + rewrite app_nth1 by lia. rewrite Lc, app_nth2 by lia. replace (S (2 * length pl) - length (c_shift s))%nat with 0%nat by lia. cbn [nth]. lia.
    + rewrite !app_nth1 by lia. apply SW. lia.
Qed.

Lemma steps_sorted : forall l : list nat, (forall j, (S j < length l)%nat -> (nth j l 0 < nth (S j) l 0)%nat) -> StronglySorted lt l.
Proof.
  intros l H. apply Sorted_StronglySorted; [intros a b c; lia|]. induction l as [|a l IH]; constructor.
  - apply IH. intros j Hj. apply (H (S j)). cbn [length]. lia.
  - destruct l as [|b l]; constructor. apply (H 0%nat). cbn [length]. lia.
Qed.

Lemma generate_room : forall left right srt lead gap out, roomy lead gap -> dT <= 2 * g_endSwitch g ->
  sort_result (fp_steps left) (fp_steps right) srt ->
  (forall s, In s (fp_steps left ++ fp_steps right) -> Rabs (st_time s) <= B) ->
  walk (fp_steps left) (fp_steps right) init lead gap ->
  generate_phases_r b64 g left right init dT srt = Ok out -> StronglySorted lt (ph_shift (go_ph out)).
Proof.
  intros left right srt lead gap out RM He Hs Hb W H. apply steps_sorted. destruct w_pos as (W0 & _ & _ & _ & _ & P).
  destruct (generate_r_inv _ b64_rounding _ _ _ _ _ _ _ G H) as (l0 & r0 & HL & HR & _ & _ & _ & _ & Ho & _ & _ & _ & _ & _ & Hc).
  destruct (fp_steps left) as [|l0' l] eqn:El; [discriminate|]. destruct (fp_steps right) as [|r0' r] eqn:Er; [discriminate|].
  cbn in HL, HR. injection HL as ->. injection HR as ->.
  assert (Hg0 : 0 < gap).
  { destruct RM as (_ & _ & R1 & R2 & _). pose proof (gr_pct _ _ G). destruct (Rle_or_lt (gap - dT / 2) 0) as [C|C]; [|lra].
    assert (g_switchPct g * (gap - dT / 2) <= g_switchPct g * 0) by (apply Rmult_le_compat_l; lra). lra. }
  destruct Hs as [Pm Sd].
  assert (Es : enumerates (l0 :: l) (r0 :: r) srt) by (eapply enumerates_perm; [apply Permutation_sym; exact Pm|apply all_steps_enumerates]).
  destruct (ord_structure _ _ _ _ _ _ Hg0 W Es Sd) as (a & b & pl & -> & A1 & A2 & A3 & A4 & A5 & A6 & A7 & A8 & A9).
  assert (Sp : StronglySorted tle pl) by (inversion Sd as [|? ? Q ?]; inversion Q; auto).
  pose proof (planned_spaced _ _ _ _ _ pl Hg0 W A8 A9 Sp) as SP.
  pose proof (order_planned _ _ Ho) as OP. cbn [planned List.tl] in OP.
  eapply create_room; [exact RM|exact He| | |exact Hc]; rewrite OP.
  - intros t Ht. apply Hb. destruct (A8 t Ht) as [_ Q]. apply in_or_app. destruct (t_left t); simpl in Q; apply nth_error_In in Q; auto.
  - exact SP.
Qed.

(** The number of samples. *)
Lemma spaced_last : forall l from gap, spaced from gap l -> from + INR (length l) * gap <= st_time (last l (MkStep vzero 0 from EmptyString)).
Proof.
  induction l as [|x l IH]; intros from gap H; [simpl; lra|]. destruct H as (H1 & H2). specialize (IH _ _ H2).
  change (length (x :: l)) with (S (length l)). rewrite S_INR. destruct l as [|y l]; [simpl in *; lra|].
  rewrite (last_cons _ (y :: l) x). rewrite !last_cons in *. lra.
Qed.
Lemma end_time : g_endSwitch g <= B -> INR (n_step b64 dT (g_endSwitch g)) * dT <= 2 * B.
Proof.
  intros H. destruct w_pos as (W0 & W1 & E0 & E1 & E2 & P). pose proof (gr_end _ _ G) as Ge. set (y := g_endSwitch g) in *.
  assert (Y : 0 <= y / dT) by (apply div_nonneg; lra). destruct (u_times y ltac:(lra)) as (U1 & U2).
  pose proof (b64_near (y / dT) (y / dT)) as N. rewrite Rabs_pos_eq in N by lra. specialize (N (Rle_refl _)). apply Rabs_le_inv in N.
  assert (Q1 : (b64 (y / dT) - y / dT) * dT <= (u64 * (y / dT) + eta64) * dT) by (apply Rmult_le_compat_r; lra).
  replace ((b64 (y / dT) - y / dT) * dT) with (b64 (y / dT) * dT - y) in Q1 by (field; lra).
  replace ((u64 * (y / dT) + eta64) * dT) with (u64 * y + eta64 * dT) in Q1 by (field; lra).
  destruct (nround_bounds (b64 (y / dT))) as (M1 & M2); [apply (rnd_nonneg _ b64_rounding); auto|]. fold (n_step b64 dT y) in M1, M2.
  assert (INR (n_step b64 dT y) * dT <= (b64 (y / dT) + / 2) * dT) by (apply Rmult_le_compat_r; lra). lra.
Qed.

Lemma create_count : forall nl nr fl fr ord lead gap ph, g_endSwitch g <= B -> 0 <= lead -> 3 / 2 * dT <= gap <= 4 * B ->
  (forall t, In t (planned ord) -> Rabs (st_time (t_step t)) <= B) ->
  match planned ord with [] => True | t :: q => init + lead <= st_time (t_step t) /\ spaced (st_time (t_step t)) gap (map t_step q) end ->
  create_phases_r b64 g dT init nl nr fl fr ord = Ok ph -> INR (last (ph_shift ph) 0%nat) * dT <= 9 * B.
Proof.
  intros nl nr fl fr [|a [|b [|c tl]]] lead gap ph He Hl0 Hgap Hb Hsp H; try discriminate; destruct w_pos as (W0 & W1 & E0 & E1 & E2 & P);
    pose proof (end_time He) as NE; pose proof (n_ok _ b64_rounding dT P (g_endSwitch g) ltac:(pose proof (gr_end _ _ G); lra)) as OE.
  - cbn [create_phases_r] in H. rewrite OE in H. cbn [rbind] in H. inversion H; subst ph. cbn [ph_shift last]. lra.
  - cbn [create_phases_r planned List.tl] in H, Hb, Hsp. set (pl := c :: tl) in *.
    apply rbind_ok in H. destruct H as (tot & _ & H). apply rbind_ok in H. destruct H as (s & Hs & H).
    assert (I : InvT dT init B pl s). { change pl with ([] ++ pl). eapply InvT_loop; [exact G|exact D0|exact D1|exact D2| |apply (InvT_0 dT init B D0 D1 I0)|exact Hb|exact Hs]. reflexivity. }
    rewrite OE in H. cbn [rbind] in H. apply rbind_ok in H. destruct H as (ml & _ & H). inversion H; subst ph; clear H.
    cbn [ph_shift]. rewrite last_last, plus_INR.
    pose proof (it_prev _ _ _ _ _ I) as Q1. pose proof (it_bound _ _ _ _ _ I) as Q2. apply Rabs_le_inv in Q1. apply Rabs_le_inv in Q2. pose proof I0 as Q3. apply Rabs_le_inv in Q3.
    assert (K : INR (length pl) * (6 * w) <= 4 * B).
    { destruct Hsp as (S1 & S2). unfold pl. cbn [length]. rewrite S_INR. pose proof (spaced_last _ _ _ S2) as S3. rewrite map_length in S3.
      assert (S4 : Rabs (st_time (last (map t_step tl) (MkStep vzero 0 (st_time (t_step c)) EmptyString))) <= B).
      { assert (Et : tl = [] \/ exists l1 z, tl = l1 ++ [z]).
        { destruct tl as [|d tl']; [auto|right]. destruct (exists_last (l := d :: tl') ltac:(discriminate)) as (l1 & z & Ez). eauto. }
        destruct Et as [Et|(l1 & z & Ez)]; [rewrite Et; cbn; apply Hb; left; reflexivity|].
        rewrite Ez, map_app. cbn [map]. rewrite last_last. apply Hb. unfold pl. right. rewrite Ez. apply in_or_app. right. left. reflexivity. }
      apply Rabs_le_inv in S4. pose proof (pos_INR (length tl)) as Q0.
      assert (S5 : INR (length tl) * (3 / 2 * dT) <= INR (length tl) * gap) by (apply Rmult_le_compat_l; lra).
      assert (S6 : INR (length tl) * dT <= 4 / 3 * B) by lra.
      assert (S7 : INR (length tl) * (6 * w) <= 3 * B).
      { apply Rle_trans with (INR (length tl) * (6 * (u64 * (bpow radix2 50 * dT)))).
        - apply Rmult_le_compat_l; auto. assert (0 <= u64) by (rewrite u64_val; lra). assert (w <= u64 * (bpow radix2 50 * dT)) by (apply Rmult_le_compat_l; lra). lra.
        - rewrite u64_val. change (bpow radix2 50) with 1125899906842624. lra. }
      lra. }
    lra.
Qed.

Lemma generate_count : forall left right srt lead gap out, roomy lead gap -> gap <= 4 * B -> g_endSwitch g <= B ->
  sort_result (fp_steps left) (fp_steps right) srt ->
  (forall s, In s (fp_steps left ++ fp_steps right) -> Rabs (st_time s) <= B) ->
  walk (fp_steps left) (fp_steps right) init lead gap ->
  generate_phases_r b64 g left right init dT srt = Ok out -> INR (last (ph_shift (go_ph out)) 0%nat) * dT <= 9 * B.
Proof.
  intros left right srt lead gap out RM Hg4 He Hs Hb W H. destruct w_pos as (W0 & _ & _ & _ & _ & P).
  destruct (generate_r_inv _ b64_rounding _ _ _ _ _ _ _ G H) as (l0 & r0 & HL & HR & _ & _ & _ & _ & Ho & _ & _ & _ & _ & _ & Hc).
  destruct (fp_steps left) as [|l0' l] eqn:El; [discriminate|]. destruct (fp_steps right) as [|r0' r] eqn:Er; [discriminate|].
  cbn in HL, HR. injection HL as ->. injection HR as ->. pose proof (gr_pct _ _ G) as Gp.
  assert (Y : forall y, dT + 64 * w <= g_switchPct g * y -> dT <= y).
  { intros y Hy. destruct (Rle_or_lt y dT) as [C|C]; [|lra]. destruct (Rle_or_lt y 0) as [C0|C0].
    - assert (g_switchPct g * y <= g_switchPct g * 0) by (apply Rmult_le_compat_l; lra). lra.
    - assert (g_switchPct g * y <= 1 * y) by (apply Rmult_le_compat_r; lra). lra. }
  destruct RM as (R0 & _ & R1 & R2 & _). pose proof (Y _ R0) as Hl0. pose proof (Y _ R1) as Hg0. clear Y.
  destruct Hs as [Pm Sd]. assert (Hgp : 0 < gap) by lra.
  assert (Es : enumerates (l0 :: l) (r0 :: r) srt) by (eapply enumerates_perm; [apply Permutation_sym; exact Pm|apply all_steps_enumerates]).
  destruct (ord_structure _ _ _ _ _ _ Hgp W Es Sd) as (a & b & pl & -> & A1 & A2 & A3 & A4 & A5 & A6 & A7 & A8 & A9).
  assert (Sp : StronglySorted tle pl) by (inversion Sd as [|? ? Q ?]; inversion Q; auto).
  pose proof (planned_spaced _ _ _ _ _ pl Hgp W A8 A9 Sp) as SP.
  pose proof (order_planned _ _ Ho) as OP. cbn [planned List.tl] in OP.
  eapply (create_count _ _ _ _ _ lead gap); [exact He|lra|lra| | |exact Hc]; rewrite OP.
  - intros t Ht. apply Hb. destruct (A8 t Ht) as [_ Q]. apply in_or_app. destruct (t_left t); simpl in Q; apply nth_error_In in Q; auto.
  - exact SP.
Qed.
End Room.
