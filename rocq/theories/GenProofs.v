From Coq Require Import String Reals Lra Lia ZArith List Bool Sorting.Sorted Sorting.Permutation.
From Verif Require Import Prelude Rounding FootPrint GenPhases GenSpec.
Import ListNotations.
Open Scope R_scope.

Lemma rbind_ok : forall A B (r : res A) (f : A -> res B) b, (do x <- r; f x) = Ok b ->
  exists a, r = Ok a /\ f a = Ok b.
Proof. intros A B [a| |] f b H; simpl in H; try discriminate. eauto. Qed.

Lemma sub_size_ok : forall a b n, sub_size a b = Ok n -> (b <= a)%nat /\ n = (a - b)%nat.
Proof. intros a b n H. unfold sub_size in H. destruct (Nat.leb_spec b a); try discriminate. inversion H; auto. Qed.

Lemma sub_size_le : forall a b, (b <= a)%nat -> sub_size a b = Ok (a - b)%nat.
Proof. intros a b H. unfold sub_size. destruct (Nat.leb_spec b a); auto; lia. Qed.

(** Settings. *)
Lemma good_new : good_settings gset_new.
Proof. constructor; simpl; lra. Qed.

Lemma good_run : forall o g, good_settings g -> good_settings (gset_run g o).
Proof.
  intros o g [A B C D]. destruct o; simpl; try (constructor; simpl; assumption).
  - unfold set_switchRatio. rcases; simpl; [constructor; auto|]. constructor; simpl; auto.
    split. apply Rdiv_lt_0_compat; lra. apply (Rmult_lt_reg_r (1 + r)); [lra|]. field_simplify; lra.
  - unfold set_terminalSwitch. rcases; simpl; constructor; simpl; auto.
  - unfold set_pauseConditions. rcases; simpl; constructor; simpl; auto; lra.
  - unfold set_mergeRatio. rcases; simpl; constructor; simpl; auto; lra.
Qed.

Lemma good_history : forall ops, good_settings (fold_left gset_run ops gset_new).
Proof.
  intros ops. assert (H : forall g, good_settings g -> good_settings (fold_left gset_run ops g)).
  { induction ops; simpl; auto. intros g Hg. apply IHops, good_run; auto. }
  apply H, good_new.
Qed.

Lemma refused_keeps : forall g o, gset_ok g o = false -> gset_run g o = g.
Proof.
  intros g o H. destruct o; simpl in *; try discriminate;
    unfold set_switchRatio, set_terminalSwitch, set_pauseConditions, set_mergeRatio in *;
    revert H; rcases; simpl; auto; discriminate.
Qed.

(** Switch time. *)
Lemma switch_time_bounds : forall g f sf t, good_settings g -> 0 <= t ->
  let ns := g_nomStep g - g_switchPct g * g_nomStep g in
  0 <= switch_time g ns f sf t <= t.
Proof.
  intros g f sf t [[P0 P1] E [N1 N2] M] Ht. unfold switch_time. cbv zeta.
  assert (HN : 0 < g_nomStep g - g_switchPct g * g_nomStep g <= g_nomStep g).
  { split. replace (g_nomStep g - g_switchPct g * g_nomStep g) with ((1 - g_switchPct g) * g_nomStep g) by ring.
    apply Rmult_lt_0_compat; lra. assert (0 < g_switchPct g * g_nomStep g) by (apply Rmult_lt_0_compat; lra). lra. }
  set (p := g_switchPct g) in *.
  destruct (f && negb sf).
  - replace (p / (1 - p / 2) * t / 2) with (p / (2 - p) * t) by (field; lra).
    assert (0 <= p / (2 - p) <= 1).
    { split. apply Rlt_le, Rdiv_lt_0_compat; lra. apply (Rmult_le_reg_r (2 - p)); [lra|]. field_simplify; lra. }
    split. apply Rmult_le_pos; lra. rewrite <- (Rmult_1_l t) at 2. apply Rmult_le_compat_r; lra.
  - destruct (g_pause g && Rgtb t (g_maxStep g)) eqn:B.
    + apply andb_true_iff in B. destruct B as [_ B]. unfold Rgtb in B. apply Rltb_true in B. lra.
    + split. apply Rmult_le_pos; lra. rewrite <- (Rmult_1_l t) at 2. apply Rmult_le_compat_r; lra.
Qed.

(** Segments. *)
Lemma seg_old : forall l l' a b p, (b <= length l)%nat -> seg l a b p -> seg (l ++ l') a b p.
Proof. intros l l' a b p H S i Hi. rewrite nth_error_app1 by lia. apply S; auto. Qed.

Lemma seg_rep : forall l n l' p, seg (l ++ repeat p n ++ l') (length l) (length l + n) p.
Proof.
  intros l n l' p i Hi. rewrite nth_error_app2 by lia. rewrite nth_error_app1 by (rewrite repeat_length; lia).
  apply nth_error_repeat. lia.
Qed.

Lemma seg_rep1 : forall l n p, seg (l ++ repeat p n) (length l) (length l + n) p.
Proof. intros. pose proof (seg_rep l n [] p) as H. rewrite app_nil_r in H. exact H. Qed.

Lemma seg_rep2 : forall l n m q p, seg (l ++ repeat q n ++ repeat p m) (length l + n) (length l + n + m) p.
Proof.
  intros l n m q p. rewrite app_assoc. pose proof (seg_rep1 (l ++ repeat q n) m p) as H.
  rewrite app_length, repeat_length in H. exact H.
Qed.

Lemma nth_snoc2 : forall (l : list nat) a b i d,
  nth i (l ++ [a; b]) d = if Nat.ltb i (length l) then nth i l d
                          else if Nat.eqb i (length l) then a
                          else if Nat.eqb i (S (length l)) then b else d.
Proof.
  intros l a b i d. destruct (Nat.ltb_spec i (length l)).
  - apply app_nth1; auto.
  - rewrite app_nth2 by lia. destruct (Nat.eqb_spec i (length l)).
    + replace (i - length l)%nat with 0%nat by lia. reflexivity.
    + destruct (Nat.eqb_spec i (S (length l))).
      * replace (i - length l)%nat with 1%nat by lia. reflexivity.
      * apply nth_overflow. simpl. lia.
Qed.

Definition cph (s : cpst) (b : bool) : list phase := if b then c_lp s else c_rp s.
Definition sh (s : cpst) (i : nat) : nat := nth i (c_shift s) 0%nat.

Definition window (s : cpst) (k : nat) (t : tstep) : Prop :=
  seg (cph s (t_left t)) (sh s (2 * k)) (sh s (2 * k + 1)) SwitchOut
  /\ seg (cph s (negb (t_left t))) (sh s (2 * k)) (sh s (2 * k + 1)) SwitchIn
  /\ seg (cph s (t_left t)) (sh s (2 * k + 1)) (sh s (2 * k + 2)) Swing
  /\ seg (cph s (negb (t_left t))) (sh s (2 * k + 1)) (sh s (2 * k + 2)) Stance.

Record Inv (dT init : R) (done : list tstep) (s : cpst) : Prop := MkInv {
  i_len : length (c_shift s) = (2 * length done + 1)%nat;
  i_hd : sh s 0 = 0%nat;
  i_cur : sh s (2 * length done) = c_cur s;
  i_mono : forall i j, (i <= j <= 2 * length done)%nat -> (sh s i <= sh s j)%nat;
  i_ll : length (c_lp s) = c_cur s;
  i_lr : length (c_rp s) = c_cur s;
  i_win : forall k t, nth_error done k = Some t -> window s k t;
  i_prev : c_prev s = init + INR (c_cur s) * dT;
  i_time : forall k t, nth_error done k = Some t ->
            Rabs (init + INR (sh s (2 * k + 2)) * dT - st_time (t_step t)) <= dT / 2;
  i_li : foot_indices true done = seq 1 (c_li s - 1) /\ (1 <= c_li s)%nat;
  i_ri : foot_indices false done = seq 1 (c_ri s - 1) /\ (1 <= c_ri s)%nat;
  i_last : c_lastLeft s = match rev done with [] => None | t :: _ => Some (t_left t) end;
  i_mle : Forall (fun m => (m <= c_cur s)%nat) (c_merge s);
  i_msort : StronglySorted le (c_merge s);
  i_mdbl : forall m, In m (c_merge s) -> (m = 0%nat \/ exists k, (1 <= k < length done)%nat
            /\ (sh s (2 * k) <= m <= sh s (2 * k + 1))%nat);
  i_mstr : (forall k, (k < length done)%nat -> (sh s (2 * k + 1) < sh s (2 * k + 2))%nat) ->
           StronglySorted lt (c_merge s) /\ (done <> [] -> Forall (fun m => (m < c_cur s)%nat) (c_merge s))
}.

(** Inversion of one iteration. *)
Lemma cp_step_inv : forall g dT nl nr sf k nx s s', good_settings g -> 0 < dT ->
  cp_step g dT (g_nomStep g - g_switchPct g * g_nomStep g) nl nr sf k nx s = Ok s' ->
  let stepTime := st_time (t_step nx) - c_prev s in
  let switchTime := switch_time g (g_nomStep g - g_switchPct g * g_nomStep g) (Nat.eqb k 2) sf stepTime in
  let n := nround (stepTime / dT) in
  let sw := nround (switchTime / dT) in
  0 <= stepTime /\ (sw <= n)%nat
  /\ t_idx nx = (if t_left nx then c_li s else c_ri s)
  /\ cph s' (t_left nx) = cph s (t_left nx) ++ repeat SwitchOut sw ++ repeat Swing (n - sw)
  /\ cph s' (negb (t_left nx)) = cph s (negb (t_left nx)) ++ repeat SwitchIn sw ++ repeat Stance (n - sw)
  /\ c_shift s' = c_shift s ++ [(c_cur s + sw)%nat; (c_cur s + n)%nat]
  /\ c_cur s' = (c_cur s + n)%nat
  /\ c_prev s' = c_prev s + INR n * dT
  /\ c_lastLeft s' = Some (t_left nx)
  /\ c_li s' = (if t_left nx then S (c_li s) else c_li s)
  /\ c_ri s' = (if t_left nx then c_ri s else S (c_ri s))
  /\ exists mp, c_merge s' = c_merge s ++ mp
     /\ (k = 2%nat -> mp = [])
     /\ (k <> 2%nat -> exists a b, (c_cur s <= a <= b)%nat /\ (b <= c_cur s + sw)%nat /\ mp = range_incl a b).
Proof.
  intros g dT nl nr sf k nx s s' G Hd H stepTime switchTime n sw.
  unfold cp_step in H. fold stepTime in H.
  destruct (Rltb stepTime 0) eqn:B; [discriminate|]. apply Rltb_false in B.
  fold switchTime in H.
  pose proof (switch_time_bounds g (Nat.eqb k 2) sf stepTime G B) as [S0 S1]. cbv zeta in S0, S1. fold switchTime in S0, S1.
  assert (D0 : 0 <= stepTime / dT) by (apply Rmult_le_pos; [lra|apply Rlt_le, Rinv_0_lt_compat; lra]).
  assert (D1 : 0 <= switchTime / dT <= stepTime / dT).
  { split. apply Rmult_le_pos; [lra|apply Rlt_le, Rinv_0_lt_compat; lra].
    apply Rmult_le_compat_r; [apply Rlt_le, Rinv_0_lt_compat; lra|lra]. }
  assert (Hle : (sw <= n)%nat) by (apply nround_mono; lra).
  rewrite size_round_ok in H by lra. simpl in H. fold n in H.
  rewrite size_round_ok in H by lra. simpl in H. fold sw in H.
  rewrite sub_size_le in H by lia. simpl in H.
  assert (Q : exists isL, t_left nx && Nat.eqb (t_idx nx) (c_li s) = isL /\
     negb (t_left nx) && Nat.eqb (t_idx nx) (c_ri s) = negb isL /\ t_left nx = isL /\
     t_idx nx = (if t_left nx then c_li s else c_ri s)).
  { destruct (t_left nx); simpl in H |- *.
    - destruct (Nat.eqb_spec (t_idx nx) (c_li s)); simpl in H; [|discriminate]. exists true. auto.
    - destruct (Nat.eqb_spec (t_idx nx) (c_ri s)); simpl in H; [|discriminate]. exists false. auto. }
  destruct Q as (isL & Q1 & Q2 & Q3 & Q4). rewrite Q1, Q2 in H.
  assert (HB : negb isL && negb (negb isL) = false) by (destruct isL; reflexivity). rewrite HB in H.
  apply rbind_ok in H. destruct H as (mp & Hmp & H). inversion H; subst s'; clear H. cbn [c_lp c_rp c_shift c_cur c_merge c_li c_ri c_prev c_lastLeft c_ub].
  rewrite Q3 in *.
  replace (c_cur s + sw + (n - sw))%nat with (c_cur s + n)%nat by lia.
  repeat split; auto; try (destruct isL; reflexivity).
  exists mp. split; auto. split.
  - intros ->. simpl in Hmp. congruence.
  - intros Hk. destruct (Nat.eqb_spec k 2) as [E|_]; [contradiction|].
    destruct G as [_ _ _ [[M1 M2] M3]].
    assert (O1 : 0 <= switchTime * (1 - g_mrEnd g) / dT <= switchTime * (1 - g_mrBegin g) / dT).
    { split. apply Rmult_le_pos; [apply Rmult_le_pos; lra|apply Rlt_le, Rinv_0_lt_compat; lra].
      apply Rmult_le_compat_r; [apply Rlt_le, Rinv_0_lt_compat; lra|]. apply Rmult_le_compat_l; lra. }
    assert (O2 : switchTime * (1 - g_mrBegin g) / dT <= switchTime / dT).
    { apply Rmult_le_compat_r; [apply Rlt_le, Rinv_0_lt_compat; lra|].
      rewrite <- (Rmult_1_r switchTime) at 2. apply Rmult_le_compat_l; lra. }
    rewrite size_round_ok in Hmp by lra. simpl in Hmp. rewrite size_round_ok in Hmp by lra. simpl in Hmp.
    pose proof (nround_mono (switchTime * (1 - g_mrEnd g) / dT) _ O1) as L1.
    assert (L2 : (nround (switchTime * (1 - g_mrBegin g) / dT) <= sw)%nat) by (apply nround_mono; lra).
    rewrite sub_size_le in Hmp by lia. simpl in Hmp. rewrite sub_size_le in Hmp by lia. simpl in Hmp.
    inversion Hmp. do 2 eexists. split; [|split; [|reflexivity]]; lia.
Qed.

Lemma ssorted_app : forall (A : Type) (R : A -> A -> Prop) l l', StronglySorted R l -> StronglySorted R l' ->
  (forall a b, In a l -> In b l' -> R a b) -> StronglySorted R (l ++ l').
Proof.
  intros A R l l' H H' C. induction H; simpl; auto. constructor.
  - apply IHStronglySorted. intros. apply C; simpl; auto.
  - apply Forall_app. split; auto. apply Forall_forall. intros. apply C; simpl; auto.
Qed.

Lemma seq_ssorted : forall n a, StronglySorted lt (seq a n).
Proof.
  induction n; intros a; simpl; constructor; auto. apply Forall_forall. intros x Hx. apply in_seq in Hx. lia.
Qed.
Lemma ssorted_lt_le : forall l, StronglySorted lt l -> StronglySorted le l.
Proof. induction 1; constructor; auto. eapply Forall_impl; [|eassumption]. simpl; intros; lia. Qed.

Lemma in_range_incl : forall a b m, In m (range_incl a b) <-> (a <= m <= b)%nat.
Proof. intros. unfold range_incl. rewrite in_seq. lia. Qed.

Lemma sample_err : forall t dT, 0 < dT -> 0 <= t -> Rabs (INR (nround (t / dT)) * dT - t) <= dT / 2.
Proof.
  intros t dT Hd Ht.
  assert (H : 0 <= t / dT) by (apply Rmult_le_pos; [lra|apply Rlt_le, Rinv_0_lt_compat; lra]).
  pose proof (nround_bounds _ H) as B. set (n := INR (nround (t / dT))) in *.
  assert (E : t = (t / dT) * dT) by (field; lra). rewrite E at 1.
  replace (n * dT - t / dT * dT) with ((n - t / dT) * dT) by ring.
  rewrite Rabs_mult, (Rabs_pos_eq dT) by lra. replace (dT / 2) with (/ 2 * dT) by field.
  apply Rmult_le_compat_r; [lra|]. apply Rabs_le. lra.
Qed.

Lemma Inv_step : forall g dT init nl nr sf k nx s s' done, good_settings g -> 0 < dT ->
  k = (2 + length done)%nat -> Inv dT init done s ->
  cp_step g dT (g_nomStep g - g_switchPct g * g_nomStep g) nl nr sf k nx s = Ok s' ->
  Inv dT init (done ++ [nx]) s'.
Proof.
  intros g dT init nl nr sf k nx s s' done G Hd Hk I H.
  destruct (cp_step_inv _ _ _ _ _ _ _ _ _ G Hd H) as
    (T0 & Hle & Hidx & Psw & Pst & Hsh & Hcur & Hprev & Hlast & Hli & Hri & mp & Hmp & Hmp2 & Hmpk).
  cbv zeta in *.
  set (stepTime := st_time (t_step nx) - c_prev s) in *.
  set (sw := nround (switch_time _ _ _ _ _ / dT)) in *.
  set (n := nround (stepTime / dT)) in *.
  destruct I.
  assert (Lc : forall b, length (cph s b) = c_cur s) by (intros [|]; simpl; auto).
  assert (Lc' : forall b, length (cph s' b) = (c_cur s + n)%nat).
  { intros b. destruct (Bool.bool_dec b (t_left nx)) as [->|Hb].
    - rewrite Psw, !app_length, !repeat_length, Lc. lia.
    - assert (b = negb (t_left nx)) by (destruct b, (t_left nx); simpl in *; congruence). subst b.
      rewrite Pst, !app_length, !repeat_length, Lc. lia. }
  set (d := length done) in *.
  assert (SHO : forall i, (i <= 2 * d)%nat -> sh s' i = sh s i).
  { intros i Hi. unfold sh. rewrite Hsh, nth_snoc2, i_len0. destruct (Nat.ltb_spec i (2 * d + 1)); auto; lia. }
  assert (SH1 : sh s' (2 * d + 1) = (c_cur s + sw)%nat).
  { unfold sh. rewrite Hsh, nth_snoc2, i_len0. rewrite Nat.ltb_irrefl, Nat.eqb_refl. reflexivity. }
  assert (SH2 : sh s' (2 * d + 2) = (c_cur s + n)%nat).
  { unfold sh. rewrite Hsh, nth_snoc2, i_len0.
    destruct (Nat.ltb_spec (2 * d + 2) (2 * d + 1)); [lia|]. destruct (Nat.eqb_spec (2 * d + 2) (2 * d + 1)); [lia|].
    destruct (Nat.eqb_spec (2 * d + 2) (S (2 * d + 1))); [reflexivity|lia]. }
  assert (Old : forall b, exists l', cph s' b = cph s b ++ l').
  { intros b. destruct (Bool.bool_dec b (t_left nx)) as [->|Hb]; [eexists; exact Psw|].
    assert (b = negb (t_left nx)) by (destruct b, (t_left nx); simpl in *; congruence). subst b. eexists; exact Pst. }
  assert (Lapp : length (done ++ [nx]) = S d) by (rewrite app_length; simpl; subst d; lia).
  assert (Nth : forall j t, nth_error (done ++ [nx]) j = Some t -> ((j < d)%nat /\ nth_error done j = Some t) \/ (j = d /\ t = nx)).
  { intros j t Hj. destruct (Nat.lt_ge_cases j d).
    - left. rewrite nth_error_app1 in Hj by auto. auto.
    - right. rewrite nth_error_app2 in Hj by auto. fold d in Hj.
      destruct (j - d)%nat eqn:E; simpl in Hj; [|destruct n0; discriminate]. inversion Hj. split; auto; lia. }
  constructor.
  - rewrite Hsh, app_length, i_len0, Lapp. simpl. lia.
  - rewrite SHO by lia. auto.
  - rewrite Lapp. replace (2 * S d)%nat with (2 * d + 2)%nat by lia. rewrite SH2, Hcur. reflexivity.
  - rewrite Lapp. intros i j Hij.
    assert (C : forall i, (i <= 2 * d)%nat -> (sh s i <= c_cur s)%nat).
    { intros q Hq. rewrite <- i_cur0. apply i_mono0. lia. }
    assert (V : forall i, (i <= 2 * S d)%nat -> (i <= 2 * d)%nat \/ i = (2 * d + 1)%nat \/ i = (2 * d + 2)%nat) by (intros; lia).
    destruct (V i) as [Hi|[Hi|Hi]]; [lia| | |]; destruct (V j) as [Hj|[Hj|Hj]]; try lia;
      try rewrite Hi; try rewrite Hj; rewrite ?SH1, ?SH2, ?(SHO i Hi), ?(SHO j Hj); try lia.
    + apply i_mono0. lia.
    + specialize (C i Hi). lia.
    + specialize (C i Hi). lia.
  - rewrite Hcur. apply (Lc' true).
  - rewrite Hcur. apply (Lc' false).
  - intros j t Hj. destruct (Nth _ _ Hj) as [[Hlt Ho]|[-> ->]].
    + destruct (i_win0 _ _ Ho) as (W1 & W2 & W3 & W4). unfold window. rewrite !SHO by lia.
      assert (C : forall i, (i <= 2 * d)%nat -> (sh s i <= c_cur s)%nat).
      { intros q Hq. rewrite <- i_cur0. apply i_mono0. lia. }
      destruct (Old (t_left t)) as (x & Hx). destruct (Old (negb (t_left t))) as (y & Hy). rewrite Hx, Hy.
      repeat split; apply seg_old; auto; rewrite Lc; apply C; lia.
    + unfold window. rewrite SH1, SH2, (SHO (2 * d)%nat), i_cur0 by lia. rewrite Psw, Pst.
      replace (c_cur s + n)%nat with (c_cur s + sw + (n - sw))%nat by lia.
      repeat split.
      * rewrite <- (Lc (t_left nx)). apply seg_rep.
      * rewrite <- (Lc (negb (t_left nx))). apply seg_rep.
      * rewrite <- (Lc (t_left nx)). apply seg_rep2.
      * rewrite <- (Lc (negb (t_left nx))). apply seg_rep2.
  - rewrite Hprev, Hcur, plus_INR, i_prev0. ring.
  - intros j t Hj. destruct (Nth _ _ Hj) as [[Hlt Ho]|[-> ->]].
    + rewrite SHO by lia. apply i_time0; auto.
    + rewrite SH2, plus_INR.
      replace (init + (INR (c_cur s) + INR n) * dT - st_time (t_step nx)) with (INR n * dT - stepTime)
        by (unfold stepTime; rewrite i_prev0; ring).
      apply sample_err; auto.
  - destruct i_li0 as [A B]. unfold foot_indices in *. rewrite filter_app, map_app, A. simpl.
    rewrite Hli. destruct (t_left nx); simpl.
    + split; [|lia]. rewrite Hidx. replace (c_li s - 0)%nat with (S (c_li s - 1)) by lia.
      rewrite seq_S. f_equal. f_equal. lia.
    + rewrite app_nil_r. auto.
  - destruct i_ri0 as [A B]. unfold foot_indices in *. rewrite filter_app, map_app, A. simpl.
    rewrite Hri. destruct (t_left nx); simpl.
    + rewrite app_nil_r. auto.
    + split; [|lia]. rewrite Hidx. replace (c_ri s - 0)%nat with (S (c_ri s - 1)) by lia.
      rewrite seq_S. f_equal. f_equal. lia.
  - rewrite Hlast, rev_app_distr. reflexivity.
  - rewrite Hmp, Hcur. apply Forall_app. split.
    + eapply Forall_impl; [|exact i_mle0]. simpl; intros; lia.
    + destruct (Nat.eq_dec k 2) as [E|E].
      * rewrite (Hmp2 E). constructor.
      * destruct (Hmpk E) as (a & b & P1 & P2 & ->). apply Forall_forall. intros x Hx. apply in_range_incl in Hx. lia.
  - rewrite Hmp. destruct (Nat.eq_dec k 2) as [E|E].
    + rewrite (Hmp2 E), app_nil_r. auto.
    + destruct (Hmpk E) as (a & b & P1 & P2 & ->). apply ssorted_app; auto.
      * apply ssorted_lt_le, seq_ssorted.
      * intros x y Hx Hy. rewrite Forall_forall in i_mle0. specialize (i_mle0 _ Hx). apply in_range_incl in Hy. lia.
  - intros m Hm. rewrite Hmp in Hm. apply in_app_or in Hm. rewrite Lapp. destruct Hm as [Hm|Hm].
    + destruct (i_mdbl0 _ Hm) as [->|(j & Hj & Hb)]; [left; auto|right]. exists j. rewrite !SHO by lia. split; auto; lia.
    + destruct (Nat.eq_dec k 2) as [E|E].
      * rewrite (Hmp2 E) in Hm. destruct Hm.
      * destruct (Hmpk E) as (a & b & P1 & P2 & ->). apply in_range_incl in Hm. right. exists d.
        rewrite SH1, SHO, i_cur0 by lia. split; lia.
  - rewrite Lapp. intros Hstr.
    assert (Hs1 : forall k0, (k0 < d)%nat -> (sh s (2 * k0 + 1) < sh s (2 * k0 + 2))%nat).
    { intros q Hq. specialize (Hstr q ltac:(lia)). rewrite !SHO in Hstr by lia. auto. }
    specialize (Hstr d ltac:(lia)). rewrite SH1, SH2 in Hstr.
    destruct (i_mstr0 Hs1) as [Q1 Q2].
    rewrite Hmp, Hcur. destruct (Nat.eq_dec k 2) as [E|E].
    + rewrite (Hmp2 E), app_nil_r. split; auto. intros _. eapply Forall_impl; [|exact i_mle0]. simpl; intros; lia.
    + destruct (Hmpk E) as (a & b & P1 & P2 & ->).
      assert (Hd0 : done <> []) by (intros ->; simpl in *; lia). specialize (Q2 Hd0).
      split.
      * apply ssorted_app; auto. apply seq_ssorted.
        intros x y Hx Hy. rewrite Forall_forall in Q2. specialize (Q2 _ Hx). apply in_range_incl in Hy. lia.
      * intros _. apply Forall_app. split. eapply Forall_impl; [|exact Q2]. simpl; intros; lia.
        apply Forall_forall. intros x Hx. apply in_range_incl in Hx. lia.
Qed.

Lemma Inv_loop : forall g dT init nl nr sf tl k s s' done, good_settings g -> 0 < dT ->
  k = (2 + length done)%nat -> Inv dT init done s ->
  cp_loop g dT (g_nomStep g - g_switchPct g * g_nomStep g) nl nr sf k tl s = Ok s' ->
  Inv dT init (done ++ tl) s'.
Proof.
  intros g dT init nl nr sf tl. induction tl as [|nx tl IH]; intros k s s' done G Hd Hk I H; simpl in H.
  - inversion H; subst. rewrite app_nil_r. auto.
  - apply rbind_ok in H. destruct H as (s1 & H1 & H).
    replace (done ++ nx :: tl) with ((done ++ [nx]) ++ tl) by (rewrite <- app_assoc; reflexivity).
    eapply IH; [auto|auto| |eapply Inv_step; eauto|exact H]. rewrite app_length. simpl. lia.
Qed.

Lemma Inv_0 : forall dT init, Inv dT init [] (MkCP [] [] [0%nat] 0 [0%nat] 1 1 init None false).
Proof.
  intros dT init. constructor; simpl; auto.
  - intros i j H. assert (i = 0%nat /\ j = 0%nat) by lia. destruct H0; subst. auto.
  - intros k t H. destruct k; discriminate.
  - lra.
  - intros k t H. destruct k; discriminate.
  - repeat constructor.
  - intros m [H|[]]; auto.
  - intros _. split; [repeat constructor|congruence].
Qed.
