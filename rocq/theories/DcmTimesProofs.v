(** Proofs about the times of the DCM generator in doubles. *)
From Coq Require Import String Reals ZArith List Bool Lia Lra Sorting.Sorted.
From Flocq Require Import Core IEEE754.BinarySingleNaN.
From Verif Require Import Prelude Rounding GenPhases RoundedGen RoundedGenSpec RoundedGenProofs2 RoundedGenProofs3
  Doubles DoublesGen DoublesSpec DoublesProofs DcmTimes DcmTimesSpec.
Import ListNotations.
Open Scope R_scope.
Global Opaque fadd fsub fmul fdiv fmake fpi.

(** ** Sampling instants as reals *)
Section Instants.
Variable d : R.
Hypothesis d_lo : bpow radix2 (-900) <= d.
Hypothesis d_hi : d <= bpow radix2 900.
Definition T (n : nat) : R := b64 (INR n * d).
Lemma d_pos : 0 < d. Proof. pose proof (bpow_gt_0 radix2 (-900)). lra. Qed.
Lemma T_mono : forall n m, (n <= m)%nat -> T n <= T m.
Proof.
  intros n m H. apply (r_mono _ b64_rounding). apply Rmult_le_compat_r; [pose proof d_pos; lra|]. apply le_INR; auto.
Qed.
Lemma b64_0 : b64 0 = 0.
Proof. apply b64_fix. replace 0 with (IZR 0 * bpow radix2 0) by ring. apply is_b64_dyadic; lia. Qed.
Lemma T_0 : T 0 = 0.
Proof. unfold T. cbn [INR]. rewrite Rmult_0_l. apply b64_0. Qed.
Lemma T_pos : forall n, 0 <= T n.
Proof. intros n. rewrite <- T_0. apply T_mono. lia. Qed.
Lemma T_b64 : forall n, b64 (T n) = T n.
Proof. intros n. apply (r_idem _ b64_rounding). Qed.
Lemma eta_d : eta64 <= d / bpow radix2 170.
Proof.
  unfold eta64. replace (bpow radix2 (-1074)) with (bpow radix2 (-904) * bpow radix2 (-170)) by (rewrite <- bpow_plus; reflexivity).
  assert (bpow radix2 (-904) <= bpow radix2 (-900)) by (apply bpow_le; lia).
  unfold Rdiv. rewrite <- bpow_opp. change (- (170))%Z with (-170)%Z. pose proof (bpow_gt_0 radix2 (-170)). pose proof (bpow_gt_0 radix2 (-904)).
  rewrite <- Rmult_assoc. apply Rmult_le_compat_r; lra.
Qed.
Lemma eta_d2 : 0 <= eta64 <= d / 2 ^ 60.
Proof.
  split; [apply eta64_pos|]. eapply Rle_trans; [apply eta_d|]. pose proof d_pos. apply Rmult_le_compat_l; [lra|].
  replace (2 ^ 60) with (bpow radix2 60) by (rewrite (bpow_powerRZ radix2 60); reflexivity).
  apply Rinv_le_contravar; [apply bpow_gt_0|apply bpow_le; lia].
Qed.
Lemma T_err : forall n, Rabs (T n - INR n * d) <= u64 * (INR n * d) + eta64.
Proof.
  intros n. apply b64_near. rewrite Rabs_pos_eq; [lra|]. apply Rmult_le_pos; [apply pos_INR|pose proof d_pos; lra].
Qed.
Lemma INR_Z : forall n k, (Z.of_nat n <= k)%Z -> INR n <= IZR k.
Proof. intros n k H. rewrite INR_IZR_INZ. apply IZR_le; auto. Qed.
(** Errors of the instants, up to 2^50 and up to 2^30 samples. *)
Lemma T_err50 : forall n, (Z.of_nat n <= 2 ^ 50)%Z -> Rabs (T n - INR n * d) <= d / 7.
Proof.
  intros n H. eapply Rle_trans; [apply T_err|]. apply INR_Z in H. pose proof d_pos. pose proof eta_d2. rewrite u64_val.
  assert (INR n * d <= IZR (2 ^ 50) * d) by (apply Rmult_le_compat_r; lra). change (IZR (2 ^ 50)) with 1125899906842624 in *. lra.
Qed.
Lemma T_err30 : forall n, (Z.of_nat n <= 2 ^ 31)%Z -> Rabs (T n - INR n * d) <= d / 100000.
Proof.
  intros n H. eapply Rle_trans; [apply T_err|]. apply INR_Z in H. pose proof d_pos. pose proof eta_d2. rewrite u64_val.
  assert (INR n * d <= IZR (2 ^ 31) * d) by (apply Rmult_le_compat_r; lra). change (IZR (2 ^ 31)) with 2147483648 in *. lra.
Qed.
Lemma T_hi : forall n, (Z.of_nat n <= 2 ^ 50)%Z -> T n <= bpow radix2 960.
Proof.
  intros n H. pose proof (T_err50 n H) as E. apply Rabs_le_inv in E. apply INR_Z in H. pose proof d_pos.
  assert (INR n * d <= IZR (2 ^ 50) * d) by (apply Rmult_le_compat_r; lra).
  replace (bpow radix2 960) with (IZR (2 ^ 60) * bpow radix2 900).
  2:{ change (IZR (2 ^ 60)) with (bpow radix2 60). rewrite <- bpow_plus. reflexivity. }
  change (IZR (2 ^ 50)) with 1125899906842624 in *. change (IZR (2 ^ 60)) with 1152921504606846976. lra.
Qed.
Lemma T_hi30 : forall n, (Z.of_nat n <= 2 ^ 31)%Z -> T n <= 2147483649 * d.
Proof.
  intros n H. pose proof (T_err30 n H) as E. apply Rabs_le_inv in E. apply INR_Z in H. pose proof d_pos.
  assert (INR n * d <= IZR (2 ^ 31) * d) by (apply Rmult_le_compat_r; lra). change (IZR (2 ^ 31)) with 2147483648 in *. lra.
Qed.
(** Consecutive instants are at least half a period apart. *)
Lemma T_gap : forall n m, (Z.of_nat m <= 2 ^ 50)%Z -> (n < m)%nat -> T n + d / 2 <= T m.
Proof.
  intros n m H L. pose proof (T_err50 n ltac:(lia)) as E1. pose proof (T_err50 m H) as E2. apply Rabs_le_inv in E1, E2.
  assert (L' : INR n + 1 <= INR m) by (rewrite <- S_INR; apply le_INR; lia). pose proof d_pos.
  assert ((INR n + 1) * d <= INR m * d) by (apply Rmult_le_compat_r; lra). lra.
Qed.
Lemma T_inv : forall n m, (Z.of_nat n <= 2 ^ 50)%Z -> T n <= T m -> (n <= m)%nat.
Proof.
  intros n m H L. destruct (Nat.le_gt_cases n m); auto. pose proof (T_gap m n H H0). pose proof d_pos. lra.
Qed.

(** The first instant after one that is not past [a] is not past [b]. *)
Definition kick (a b : R) : Prop := forall i, (Z.of_nat i < 2 ^ 30)%Z -> T i <= a -> T (S i) <= b.
Lemma kick_samples : forall n m, (n < m)%nat -> kick (T n) (T m).
Proof. intros n m H i Hi L. apply T_inv in L; [|lia]. apply T_mono. lia. Qed.
Lemma kick_room : forall a z, a + 10001 / 10000 * d <= z -> kick a (b64 z).
Proof.
  intros a z H i Hi L. pose proof (T_err30 i ltac:(lia)) as E. apply Rabs_le_inv in E. apply (r_mono _ b64_rounding).
  rewrite S_INR. pose proof d_pos. lra.
Qed.

(** *** The final stillness *)
Variables t1 t2 still : R.
Definition tm : R := b64 (t1 + b64 (b64 (t2 - t1) * b64 (1 - still))).
Hypothesis t_le : t1 = t2 \/ t1 + d / 2 <= t2.
Hypothesis t_1 : b64 t1 = t1.
Hypothesis t_2 : b64 t2 = t2.
Hypothesis s_lo : bpow radix2 (-50) <= still.
Hypothesis s_hi : still <= 1.
Lemma share_hi : 0 <= b64 (1 - still) <= 1 - / 1125899906842624.
Proof.
  split.
  - rewrite <- b64_0. apply (r_mono _ b64_rounding). lra.
  - assert (E : b64 (1 - / 1125899906842624) = 1 - / 1125899906842624).
    { apply b64_fix. replace (1 - / 1125899906842624) with (IZR 1125899906842623 * bpow radix2 (-50)); [apply is_b64_dyadic; lia|].
      change (bpow radix2 (-50)) with (/ 1125899906842624). field. }
    rewrite <- E. apply (r_mono _ b64_rounding). change (bpow radix2 (-50)) with (/ 1125899906842624) in s_lo. lra.
Qed.
Lemma dur_bounds : t1 + d / 2 <= t2 -> (t2 - t1) * (1 - 2 * u64) <= b64 (t2 - t1) <= (t2 - t1) * (1 + 2 * u64).
Proof.
  intros H. pose proof d_pos. pose proof eta_d2.
  assert (E : Rabs (b64 (t2 - t1) - (t2 - t1)) <= u64 * (t2 - t1) + eta64) by (apply b64_near; rewrite Rabs_pos_eq; lra).
  apply Rabs_le_inv in E. rewrite u64_val in *. lra.
Qed.
Lemma tm_bounds : t1 <= tm <= t2.
Proof.
  destruct share_hi as (S0 & S1). unfold tm. set (s := b64 (1 - still)) in *.
  assert (D0 : 0 <= b64 (t2 - t1)).
  { rewrite <- b64_0. apply (r_mono _ b64_rounding). pose proof d_pos. lra. }
  assert (P0 : 0 <= b64 (b64 (t2 - t1) * s)).
  { rewrite <- b64_0. apply (r_mono _ b64_rounding). apply Rmult_le_pos; auto. }
  split.
  { rewrite <- t_1 at 1. apply (r_mono _ b64_rounding). lra. }
  rewrite <- t_2 at 2. apply (r_mono _ b64_rounding).
  destruct t_le as [E|E].
  { replace (t2 - t1) with 0 by lra. rewrite b64_0, Rmult_0_l, b64_0. lra. }
  pose proof (dur_bounds E) as B. set (D := b64 (t2 - t1)) in *. pose proof d_pos. pose proof eta_d2.
  assert (E2 : D * s <= D * (1 - / 1125899906842624)) by (apply Rmult_le_compat_l; auto).
  assert (E3 : 0 <= D * s) by (apply Rmult_le_pos; auto).
  assert (E4 : Rabs (b64 (D * s) - D * s) <= u64 * (D * s) + eta64) by (apply b64_near; rewrite Rabs_pos_eq; lra).
  apply Rabs_le_inv in E4. rewrite u64_val in *. set (X := D * s) in *. lra.
Qed.
Lemma tm_kick : 0 <= t1 -> t2 <= 2147483649 * d -> t1 + d / 2 <= t2 -> 10005 / 10000 * d <= (t2 - t1) * (1 - still) -> kick t1 tm.
Proof.
  intros Z1 Z2 H L. apply kick_room. pose proof (dur_bounds H) as B. destruct share_hi as (S0 & S1). set (s := b64 (1 - still)) in *.
  set (D := b64 (t2 - t1)) in *. pose proof d_pos as P. pose proof eta_d2 as E.
  assert (D0 : 0 <= D) by (rewrite u64_val in B; lra).
  assert (St0 : 0 <= still) by (pose proof (bpow_gt_0 radix2 (-50)); lra).
  assert (Es : Rabs (s - (1 - still)) <= u64 * (1 - still) + eta64) by (apply b64_near; rewrite Rabs_pos_eq; lra).
  apply Rabs_le_inv in Es.
  assert (E3 : 0 <= D * s) by (apply Rmult_le_pos; auto).
  assert (E4 : Rabs (b64 (D * s) - D * s) <= u64 * (D * s) + eta64) by (apply b64_near; rewrite Rabs_pos_eq; lra).
  apply Rabs_le_inv in E4. set (X := D * s) in *.
  assert (E5 : X >= 10004 / 10000 * d).
  { subst X.
    assert (F1 : D * s >= D * ((1 - still) * (1 - u64) - eta64)).
    { apply Rle_ge. apply Rmult_le_compat_l; auto. lra. }
    assert (F2 : D * ((1 - still) * (1 - u64)) >= (t2 - t1) * (1 - 2 * u64) * ((1 - still) * (1 - u64))).
    { apply Rle_ge. apply Rmult_le_compat_r; [|lra]. apply Rmult_le_pos; [lra|rewrite u64_val; lra]. }
    replace ((t2 - t1) * (1 - 2 * u64) * ((1 - still) * (1 - u64))) with ((t2 - t1) * (1 - still) * ((1 - 2 * u64) * (1 - u64))) in F2 by ring.
    assert (F3 : (t2 - t1) * (1 - still) * ((1 - 2 * u64) * (1 - u64)) >= 10005 / 10000 * d * ((1 - 2 * u64) * (1 - u64))).
    { apply Rle_ge. apply Rmult_le_compat_r; auto. apply Rmult_le_pos; rewrite u64_val; lra. }
    assert (Ea : eta64 <= / 9007199254740992).
    { unfold eta64. assert (bpow radix2 (-1074) <= bpow radix2 (-60)) by (apply bpow_le; lia). change (bpow radix2 (-60)) with (/ 1152921504606846976) in *. lra. }
    assert (F4 : D * eta64 <= 2147483650 * d * / 9007199254740992).
    { apply Rmult_le_compat; try lra. rewrite u64_val in B. lra. }
    rewrite u64_val in *. lra. }
  rewrite u64_val in *. lra.
Qed.
End Instants.

(** ** Doubles *)
Definition ok64 (x : f64) : Prop := fin x = true /\ 0 <= f2r x <= bpow radix2 960.
Lemma pow961_top : forall k, (k <= 1023)%Z -> bpow radix2 k <= top.
Proof. intros k H. eapply Rle_trans; [|apply pow_top]. apply bpow_le; auto. Qed.
Lemma twice960 : 2 * bpow radix2 960 <= top.
Proof. replace (2 * bpow radix2 960) with (bpow radix2 961); [apply pow961_top; lia|]. change 2 with (bpow radix2 1). rewrite <- bpow_plus. reflexivity. Qed.
Lemma ok_add : forall x y, ok64 x -> ok64 y -> fin (fadd x y) = true /\ f2r (fadd x y) = b64 (f2r x + f2r y).
Proof. intros x y (X & X1) (Y & Y1). apply fadd_ok; auto. pose proof twice960. rewrite Rabs_pos_eq; lra. Qed.
Lemma ok_sub : forall x y, ok64 x -> ok64 y -> fin (fsub x y) = true /\ f2r (fsub x y) = b64 (f2r x - f2r y).
Proof. intros x y (X & X1) (Y & Y1). apply fsub_ok; auto. pose proof twice960. apply Rabs_le. lra. Qed.
Lemma le_ok : forall x y, fin x = true -> fin y = true -> f2r x <= f2r y -> Bleb x y = true.
Proof. intros x y X Y H. rewrite ble_ok by auto. unfold Rleb. destruct (Rle_dec _ _); auto; lra. Qed.
Lemma ok_zero : ok64 fzero.
Proof. split; [reflexivity|]. change (f2r fzero) with 0. pose proof (bpow_gt_0 radix2 960). lra. Qed.

Section K.
Variables om still dT : f64.
Variable pause : bool.
Variables mx nom es : f64.
Variable n_end : nat.
Hypothesis lim : k_limits om still dT pause mx nom es n_end.
Notation d := (f2r dT).
Lemma kd_lo : bpow radix2 (-900) <= d. Proof. apply (kl_dT _ _ _ _ _ _ _ _ lim). Qed.
Lemma kd_hi : d <= bpow radix2 900. Proof. apply (kl_dT _ _ _ _ _ _ _ _ lim). Qed.
Hint Resolve kd_lo kd_hi : core.
Lemma kd_pos : 0 < d. Proof. apply d_pos; auto. Qed.
Lemma kd_fin : fin dT = true. Proof. apply (kl_dT _ _ _ _ _ _ _ _ lim). Qed.

Lemma fmake_nat : forall n, (Z.of_nat n <= 2 ^ 50)%Z -> fin (fmake (Z.of_nat n) 0) = true /\ f2r (fmake (Z.of_nat n) 0) = INR n.
Proof. intros n H. rewrite INR_IZR_INZ. apply fmake_exact. lia. Qed.
Lemma instant_val : forall n, (Z.of_nat n <= 2 ^ 50)%Z -> fin (instant dT n) = true /\ f2r (instant dT n) = T d n.
Proof.
  intros n H. destruct (fmake_nat n H) as (F & V). unfold instant.
  destruct (fmul_ok (fmake (Z.of_nat n) 0) dT F kd_fin) as (A & B).
  - rewrite V. apply INR_Z in H. rewrite Rabs_pos_eq.
    + apply Rle_trans with (IZR (2 ^ 50) * bpow radix2 900).
      * apply Rmult_le_compat; auto; [apply pos_INR|pose proof kd_pos; lra].
      * change (IZR (2 ^ 50)) with (bpow radix2 50). rewrite <- bpow_plus. apply pow961_top. lia.
    + apply Rmult_le_pos; [apply pos_INR|pose proof kd_pos; lra].
  - split; auto. rewrite B, V. reflexivity.
Qed.
Lemma instant_ok : forall n, (Z.of_nat n <= 2 ^ 50)%Z -> ok64 (instant dT n).
Proof.
  intros n H. destruct (instant_val n H) as (F & V). split; auto. rewrite V. split; [apply T_pos; auto|apply T_hi; auto].
Qed.
Lemma instant_0 : instant dT 0 = fzero.
Proof.
  destruct (instant_val 0 ltac:(cbn; lia)) as (F & V). rewrite T_0 in V by auto.
  unfold instant. cbn [Z.of_nat]. pose proof kd_pos as P. pose proof kd_fin as Q. clear F V.
  Transparent fmul fmake. destruct dT as [s|s| |s m e H]; try discriminate Q.
  - cbn in P. lra.
  - unfold f2r in P. cbn [B2R] in P. apply gt_0_F2R in P. destruct s; [cbn in P; lia|]. reflexivity.
Qed.
Opaque fmul fmake.

Lemma half_ok : ok64 (k_half ieee dT).
Proof.
  unfold k_half. change (a_div ieee) with fdiv. destruct (q1_ok 2 ltac:(lia)) as (F2 & V2). pose proof kd_pos.
  assert (L : Rabs (d / f2r (a_q ieee 2 1)) <= bpow radix2 900).
  { rewrite V2. rewrite Rabs_pos_eq; pose proof kd_hi; lra. }
  destruct (fdiv_ok dT (a_q ieee 2 1) kd_fin) as (A & B).
  - rewrite V2. lra.
  - eapply Rle_trans; [exact L|apply pow961_top; lia].
  - split; auto. rewrite B. split.
    + rewrite <- b64_0. apply (r_mono _ b64_rounding). rewrite V2. lra.
    + assert (b64 (d / f2r (a_q ieee 2 1)) <= b64 (bpow radix2 900)).
      { apply (r_mono _ b64_rounding). rewrite V2. pose proof kd_hi. lra. }
      eapply Rle_trans; [eassumption|]. rewrite b64_fix.
      * apply bpow_le. lia.
      * replace (bpow radix2 900) with (IZR 1 * bpow radix2 900) by ring. apply is_b64_dyadic; lia.
Qed.
Lemma mk_ok : forall a b, fin a = true -> fin b = true -> f2r a <= f2r b -> k_mk ieee om a b = Ok (a, b).
Proof.
  intros a b A B L. unfold k_mk. cbn [a_le a_lt ieee]. rewrite (le_ok a b A B L). change (a_q ieee 0 1) with (c0 ieee).
  fold (c0 ieee). change (@Bltb 53 1024 (c0 ieee) om) with (Bltb (c0 ieee) om). rewrite c0_zero.
  pose proof (kl_om _ _ _ _ _ _ _ _ lim) as H. unfold lt64 in H. rewrite H. reflexivity.
Qed.
Lemma check_ok : forall a b t, ok64 a -> ok64 b -> ok64 t -> f2r a <= f2r t <= f2r b -> k_check ieee dT (a, b) t = Ok tt.
Proof.
  intros a b t A B Ht L. unfold k_check, k_in. cbn [fst snd a_le a_sub a_add ieee]. pose proof half_ok as H. fold (k_half ieee dT).
  destruct (ok_sub a _ A H) as (S1 & S2). destruct (ok_add b _ B H) as (A1 & A2). destruct H as (_ & H).
  rewrite (le_ok (fsub a (k_half ieee dT)) t); auto.
  - rewrite (le_ok t (fadd b (k_half ieee dT))); auto; [apply Ht|]. rewrite A2. rewrite <- (f2r_fix t). apply (r_mono _ b64_rounding). lra.
  - apply Ht.
  - rewrite S2. rewrite <- (f2r_fix t). apply (r_mono _ b64_rounding). lra.
Qed.

(** Sub-trajectories: finite domains; all but the last are reached in time. *)
Definition sane (tr : list (kdom f64)) : Prop := List.Forall (fun s => ok64 (fst s) /\ ok64 (snd s)) tr.
Definition kicks (s : kdom f64) : Prop := kick d (f2r (fst s)) (f2r (snd s)).
Fixpoint prompt (tr : list (kdom f64)) : Prop :=
  match tr with s :: (_ :: _) as r => kicks s /\ prompt r | _ => True end.
Lemma prompt_app : forall l tr, tr <> [] -> List.Forall kicks l -> prompt tr -> prompt (l ++ tr).
Proof.
  intros l tr H. induction l as [|s l IH]; cbn [app]; intros HF P; auto. inversion HF; subst.
  cbn [prompt]. destruct (l ++ tr) eqn:E; auto.
Qed.
Lemma tiles_app : forall l m a b c, tiles64 a b l -> tiles64 b c m -> tiles64 a c (l ++ m).
Proof.
  induction l as [|s l IH]; cbn [app tiles64]; intros m a b c H1 H2.
  - subst. auto.
  - destruct H1 as (E1 & E2 & E3). repeat (split; auto). eapply IH; eauto.
Qed.

(** The stillness. *)
Lemma still_ok : forall n1 n2, (n1 <= n2)%nat -> (Z.of_nat n2 <= 2 ^ 50)%Z ->
  let t1 := instant dT n1 in let t2 := instant dT n2 in let t := k_still ieee still t1 t2 in
  ok64 t /\ f2r t1 <= f2r t <= f2r t2 /\ f2r t = tm (T d n1) (T d n2) (f2r still).
Proof.
  intros n1 n2 L H t1 t2 t.
  destruct (instant_val n1 ltac:(lia)) as (F1 & V1). destruct (instant_val n2 H) as (F2 & V2).
  pose proof (instant_ok n1 ltac:(lia)) as O1. pose proof (instant_ok n2 H) as O2.
  destruct (kl_still _ _ _ _ _ _ _ _ lim) as (SF & S1 & S2).
  assert (TL : T d n1 = T d n2 \/ T d n1 + d / 2 <= T d n2).
  { destruct (Nat.eq_dec n1 n2); [left; subst; auto|right]. apply T_gap; auto. lia. }
  pose proof (tm_bounds d kd_lo (T d n1) (T d n2) (f2r still) TL (T_b64 _ _) (T_b64 _ _) S1 S2) as TB.
  pose proof (share_hi (f2r still) S1 S2) as SH.
  unfold k_still in t. cbn [a_add a_mul a_sub ieee] in t.
  destruct (ok_sub t2 t1 O2 O1) as (A1 & A2). fold t1 t2 in V1, V2. rewrite V1, V2 in A2.
  destruct (q1_ok 1 ltac:(lia)) as (Q1 & Q2).
  assert (B50 : 0 < bpow radix2 (-50)) by apply bpow_gt_0.
  destruct (fsub_ok (a_q ieee 1 1) still Q1 SF) as (B1 & B2).
  { rewrite Q2. eapply Rle_trans; [|apply (pow961_top 10); lia]. change (bpow radix2 10) with 1024. apply Rabs_le. lra. }
  rewrite Q2 in B2.
  assert (D0 : 0 <= b64 (T d n2 - T d n1)).
  { rewrite <- b64_0. apply (r_mono _ b64_rounding). pose proof (T_mono d kd_lo n1 n2 L). lra. }
  assert (D1 : b64 (T d n2 - T d n1) <= bpow radix2 960).
  { rewrite <- (b64_fix (bpow radix2 960)).
    - apply (r_mono _ b64_rounding). pose proof (T_pos d kd_lo n1). pose proof (T_hi d kd_lo kd_hi n2 H). lra.
    - replace (bpow radix2 960) with (IZR 1 * bpow radix2 960) by ring. apply is_b64_dyadic; lia. }
  assert (M0 : 0 <= b64 (T d n2 - T d n1) * b64 (1 - f2r still) <= bpow radix2 960).
  { split; [apply Rmult_le_pos; lra|]. rewrite <- (Rmult_1_r (bpow radix2 960)). apply Rmult_le_compat; lra. }
  destruct (fmul_ok (fsub t2 t1) (fsub (a_q ieee 1 1) still) A1 B1) as (C1 & C2).
  { rewrite A2, B2. rewrite Rabs_pos_eq by lra. eapply Rle_trans; [apply M0|apply pow961_top; lia]. }
  rewrite A2, B2 in C2.
  assert (M1 : ok64 (fmul (fsub t2 t1) (fsub (a_q ieee 1 1) still))).
  { split; auto. rewrite C2. split.
    - rewrite <- b64_0. apply (r_mono _ b64_rounding). lra.
    - rewrite <- (b64_fix (bpow radix2 960)).
      + apply (r_mono _ b64_rounding). lra.
      + replace (bpow radix2 960) with (IZR 1 * bpow radix2 960) by ring. apply is_b64_dyadic; lia. }
  destruct (ok_add t1 _ O1 M1) as (E1 & E2). rewrite C2, V1 in E2.
  change (f2r t = tm (T d n1) (T d n2) (f2r still)) in E2. rewrite E2, V1, V2. split; [|split; auto].
  split; [exact E1|]. rewrite E2. destruct O1 as (_ & O1), O2 as (_ & O2). fold t1 in O1. fold t2 in O2. rewrite V1 in O1. rewrite V2 in O2. lra.
Qed.

(** The last step. *)
Lemma last_ok : forall n0 n1 n2, (n0 <= n1)%nat -> (n1 <= n2)%nat -> (Z.of_nat n2 <= 2 ^ 50)%Z ->
  exists s q f, k_last ieee om still dT (instant dT n0) (instant dT n1) (instant dT n2) = Ok [s; q; f]
  /\ tiles64 (instant dT n0) (instant dT n2) [s; q; f] /\ sane [s; q; f]
  /\ ((n0 < n1)%nat -> (Z.of_nat n2 <= 2 ^ 30)%Z -> 1001 / 1000 <= INR (n2 - n1) * (1 - f2r still) -> prompt [s; q; f]).
Proof.
  intros n0 n1 n2 L0 L1 H.
  destruct (still_ok n1 n2 L1 H) as (O & B & V). set (t := k_still ieee still (instant dT n1) (instant dT n2)) in *.
  pose proof (instant_ok n0 ltac:(lia)) as O0. pose proof (instant_ok n1 ltac:(lia)) as O1. pose proof (instant_ok n2 H) as O2.
  destruct (instant_val n0 ltac:(lia)) as (_ & V0). destruct (instant_val n1 ltac:(lia)) as (_ & V1). destruct (instant_val n2 H) as (_ & V2).
  assert (L01 : f2r (instant dT n0) <= f2r (instant dT n1)) by (rewrite V0, V1; apply T_mono; auto).
  exists (instant dT n0, instant dT n1), (instant dT n1, t), (t, instant dT n2). split.
  { unfold k_last. fold t. rewrite mk_ok; [|apply O0|apply O1|auto]. cbn [rbind]. rewrite check_ok by (auto; lra). cbn [rbind].
    rewrite mk_ok; [|apply O|apply O2|lra]. cbn [rbind]. rewrite mk_ok; [|apply O1|apply O|lra]. reflexivity. }
  split.
  { cbn [tiles64 fst snd]. unfold le64. split; [reflexivity|]. split; [apply le_ok; [apply O0|apply O1|auto]|].
    split; [reflexivity|]. split; [apply le_ok; [apply O1|apply O|lra]|]. split; [reflexivity|]. split; [apply le_ok; [apply O|apply O2|lra]|reflexivity]. }
  split.
  { unfold sane. repeat (apply Forall_cons; [split; auto|]). apply Forall_nil. }
  intros Ls H30 Hl. cbn [prompt]. split.
  { unfold kicks. cbn [fst snd]. rewrite V0, V1. apply kick_samples; auto. }
  split; auto. unfold kicks. cbn [fst snd]. rewrite V1, V.
  destruct (kl_still _ _ _ _ _ _ _ _ lim) as (SF & S1 & S2).
  assert (N12 : (n1 < n2)%nat).
  { destruct (Nat.eq_dec n1 n2); [|lia]. subst. rewrite Nat.sub_diag in Hl. cbn [INR] in Hl. lra. }
  assert (Tg : T d n1 + d / 2 <= T d n2) by (apply T_gap; auto).
  apply tm_kick; auto.
  - apply T_pos; auto.
  - apply T_hi30; auto. lia.
  - pose proof (T_err30 d kd_lo n1 ltac:(lia)) as E1. pose proof (T_err30 d kd_lo n2 ltac:(lia)) as E2. apply Rabs_le_inv in E1, E2.
    rewrite minus_INR in Hl by lia. pose proof kd_pos as P.
    assert (G : (INR n2 - INR n1) * d - d / 50000 <= T d n2 - T d n1) by lra.
    assert (G2 : ((INR n2 - INR n1) * d - d / 50000) * (1 - f2r still) <= (T d n2 - T d n1) * (1 - f2r still)) by (apply Rmult_le_compat_r; lra).
    assert (G3 : 1001 / 1000 * d <= (INR n2 - INR n1) * (1 - f2r still) * d) by (apply Rmult_le_compat_r; lra).
    assert (G4 : d / 50000 * (1 - f2r still) <= d / 50000 * 1).
    { apply Rmult_le_compat_l; [lra|]. pose proof (bpow_gt_0 radix2 (-50)). lra. }
    lra.
Qed.

(** A double support between two samples. *)
Lemma between_ok : forall n1 n2, (n1 <= n2)%nat -> (Z.of_nat n2 <= 2 ^ 50)%Z ->
  exists q, k_between ieee om pause mx nom es (instant dT n1) (instant dT n2) = Ok q
  /\ tiles64 (instant dT n1) (instant dT n2) q /\ sane q /\ q <> []
  /\ ((n1 < n2)%nat -> (Z.of_nat n2 <= 2 ^ 30)%Z ->
      (pause = true -> 1001 / 1000 * d <= f2r es /\ 1001 / 1000 * d <= f2r nom /\ f2r es + f2r nom + 1001 / 1000 * d <= f2r mx) ->
      List.Forall kicks q).
Proof.
  intros n1 n2 L H.
  pose proof (instant_ok n1 ltac:(lia)) as O1. pose proof (instant_ok n2 H) as O2.
  destruct (instant_val n1 ltac:(lia)) as (_ & V1). destruct (instant_val n2 H) as (_ & V2).
  assert (L12 : f2r (instant dT n1) <= f2r (instant dT n2)) by (rewrite V1, V2; apply T_mono; auto).
  unfold k_between. cbn [a_sub a_add ieee].
  destruct (k_pauses ieee pause mx nom es (fsub (instant dT n2) (instant dT n1))) eqn:E.
  2:{ exists [(instant dT n1, instant dT n2)]. rewrite mk_ok; [|apply O1|apply O2|auto]. split; [reflexivity|].
      split. { cbn [tiles64 fst snd]. split; [reflexivity|]. split; [apply le_ok; [apply O1|apply O2|auto]|reflexivity]. }
      split. { unfold sane. repeat (apply Forall_cons; [split; auto|]). apply Forall_nil. }
      split; [discriminate|]. intros Ls _ _. constructor; [|constructor]. unfold kicks. cbn [fst snd]. rewrite V1, V2. apply kick_samples; auto. }
  unfold k_pauses in E. apply andb_true_iff in E. destruct E as (Ep & E). cbn [a_lt a_add ieee] in E.
  destruct (kl_mx _ _ _ _ _ _ _ _ lim Ep) as (FX & BX). destruct (kl_nom _ _ _ _ _ _ _ _ lim Ep) as (FN & BN). destruct (kl_es _ _ _ _ _ _ _ _ lim Ep) as (FE & BE).
  assert (P9 : bpow radix2 900 <= bpow radix2 960) by (apply bpow_le; lia).
  assert (OE : ok64 es) by (split; auto; lra). assert (ON : ok64 nom) by (split; auto; lra).
  destruct (ok_add es nom OE ON) as (A1 & A2). destruct (ok_sub _ _ O2 O1) as (D1 & D2).
  assert (Q : f2r mx < f2r (fsub (instant dT n2) (instant dT n1)) \/ f2r mx < f2r (fadd es nom)).
  { rewrite (blt_ok mx (fadd es nom)) in E by auto. destruct (Rltb (f2r mx) (f2r (fadd es nom))) eqn:E1.
    - right. unfold Rltb in E1. destruct (Rlt_dec (f2r mx) (f2r (fadd es nom))); auto. discriminate.
    - left. rewrite blt_ok in E by auto. unfold Rltb in E. destruct (Rlt_dec _ _) as [K|] in E; [exact K|discriminate]. }
  assert (Q2 : f2r (fadd es nom) < f2r (fsub (instant dT n2) (instant dT n1)) /\ f2r mx < f2r (fsub (instant dT n2) (instant dT n1))).
  { rewrite (blt_ok mx (fadd es nom)) in E by auto. destruct (Rltb (f2r mx) (f2r (fadd es nom))) eqn:E1.
    - rewrite blt_ok in E by auto. unfold Rltb in E, E1. destruct (Rlt_dec (f2r mx) (f2r (fadd es nom))); [|discriminate].
      destruct (Rlt_dec (f2r (fadd es nom)) _) in E; [lra|discriminate].
    - rewrite blt_ok in E by auto. unfold Rltb in E, E1. destruct (Rlt_dec (f2r mx) (f2r (fadd es nom))); [discriminate|].
      destruct (Rlt_dec (f2r mx) _) in E; [lra|discriminate]. }
  clear Q E. destruct Q2 as (Q2 & Q3).
  assert (Q : f2r es + f2r nom < f2r (instant dT n2) - f2r (instant dT n1)).
  { apply Rnot_le_lt. intros K. apply (r_mono _ b64_rounding) in K. lra. }
  destruct (ok_add _ _ O1 OE) as (B1 & B2). destruct (ok_sub _ _ O2 ON) as (C1 & C2).
  set (ta := fadd (instant dT n1) es) in *. set (tb := fsub (instant dT n2) nom) in *.
  assert (T1 : f2r (instant dT n1) <= f2r ta). { rewrite B2. rewrite <- (f2r_fix (instant dT n1)) at 1. apply (r_mono _ b64_rounding). lra. }
  assert (T2 : f2r ta <= f2r tb). { rewrite B2, C2. apply (r_mono _ b64_rounding). lra. }
  assert (T3 : f2r tb <= f2r (instant dT n2)). { rewrite C2. rewrite <- (f2r_fix (instant dT n2)) at 2. apply (r_mono _ b64_rounding). lra. }
  assert (OA : ok64 ta) by (split; auto; destruct O1, O2; lra). assert (OB : ok64 tb) by (split; auto; destruct O1, O2; lra).
  exists [(instant dT n1, ta); (ta, tb); (tb, instant dT n2)].
  split. { rewrite mk_ok; [|auto|apply O2|auto]. cbn [rbind]. rewrite mk_ok; [|auto..]. cbn [rbind]. rewrite mk_ok; [|apply O1|auto|auto]. reflexivity. }
  split. { cbn [tiles64 fst snd]. split; [reflexivity|]. split; [apply le_ok; [apply O1|auto|auto]|].
    split; [reflexivity|]. split; [apply le_ok; auto|]. split; [reflexivity|]. split; [apply le_ok; [auto|apply O2|auto]|reflexivity]. }
  split. { unfold sane. repeat (apply Forall_cons; [split; auto|]). apply Forall_nil. }
  split; [discriminate|]. intros Ls H30 Hp. destruct (Hp Ep) as (P1 & P2 & P3). pose proof kd_pos as P.
  assert (U : T d n2 <= 2147483649 * d) by (apply T_hi30; auto; lia).
  pose proof (eta_d2 d kd_lo) as Et. pose proof (T_pos d kd_lo n1) as Z1. rewrite V1, V2 in *.
  assert (G1 : Rabs (f2r ta - (T d n1 + f2r es)) <= u64 * (2147483649 * d) + eta64).
  { rewrite B2. apply b64_near. rewrite Rabs_pos_eq; lra. }
  assert (G2 : Rabs (f2r tb - (T d n2 - f2r nom)) <= u64 * (2147483649 * d) + eta64).
  { rewrite C2. apply b64_near. rewrite Rabs_pos_eq; lra. }
  assert (G3 : Rabs (f2r (fsub (instant dT n2) (instant dT n1)) - (T d n2 - T d n1)) <= u64 * (2147483649 * d) + eta64).
  { rewrite D2. apply b64_near. rewrite Rabs_pos_eq; lra. }
  apply Rabs_le_inv in G1, G2, G3. rewrite u64_val in *.
  constructor; [|constructor; [|constructor; [|constructor]]]; unfold kicks; cbn [fst snd].
  - rewrite V1, B2. apply kick_room; auto. lra.
  - rewrite C2. apply kick_room; auto. lra.
  - rewrite V2, <- (T_b64 d n2). apply kick_room; auto. lra.
Qed.

Lemma new_ok : forall n0 n1 n2 nx r e, (n0 <= n1)%nat -> (n1 <= n2)%nat -> (Z.of_nat n2 <= 2 ^ 50)%Z ->
  fst nx = instant dT n2 -> tiles64 (instant dT n2) e (nx :: r) -> sane (nx :: r) ->
  exists s q, k_new ieee om dT pause mx nom es (instant dT n0) (instant dT n1) (nx :: r) = Ok (s :: q ++ nx :: r)
  /\ fst s = instant dT n0 /\ tiles64 (instant dT n0) e (s :: q ++ nx :: r) /\ sane (s :: q ++ nx :: r)
  /\ ((n0 < n1)%nat -> (n1 < n2)%nat -> (Z.of_nat n2 <= 2 ^ 30)%Z ->
      (pause = true -> 1001 / 1000 * d <= f2r es /\ 1001 / 1000 * d <= f2r nom /\ f2r es + f2r nom + 1001 / 1000 * d <= f2r mx) ->
      prompt (nx :: r) -> prompt (s :: q ++ nx :: r)).
Proof.
  intros n0 n1 n2 nx r e L0 L1 H Hn Ht Hs.
  pose proof (instant_ok n0 ltac:(lia)) as O0. pose proof (instant_ok n1 ltac:(lia)) as O1. pose proof (instant_ok n2 H) as O2.
  destruct (instant_val n0 ltac:(lia)) as (_ & V0). destruct (instant_val n1 ltac:(lia)) as (_ & V1).
  assert (L01 : f2r (instant dT n0) <= f2r (instant dT n1)) by (rewrite V0, V1; apply T_mono; auto).
  destruct (between_ok n1 n2 L1 H) as (q & Q1 & Q2 & Q3 & Q4 & Q5).
  exists (instant dT n0, instant dT n1), q.
  assert (Hx : ok64 (fst nx) /\ ok64 (snd nx)) by (inversion Hs; auto).
  assert (Lx : f2r (fst nx) <= f2r (snd nx)).
  { cbn [tiles64] in Ht. destruct Ht as (Ea & Eb & _). rewrite Ea. apply le64_inv in Eb. rewrite !key_fin in Eb; auto; [apply Hx|apply O2]. }
  split.
  { unfold k_new. rewrite mk_ok; [|apply O0|apply O1|auto]. cbn [rbind]. rewrite check_ok by (auto; lra). cbn [rbind].
    replace nx with (fst nx, snd nx) at 1 by (destruct nx; reflexivity). rewrite check_ok by (try tauto; lra). cbn [rbind].
    rewrite Hn, Q1. reflexivity. }
  split; [reflexivity|]. split.
  { cbn [tiles64 fst snd]. split; [reflexivity|]. split; [apply le_ok; [apply O0|apply O1|auto]|]. eapply tiles_app; eauto. }
  split.
  { apply Forall_cons; [split; auto|]. apply Forall_app. split; auto. }
  intros K0 K1 K2 K3 K4. apply (prompt_app ((instant dT n0, instant dT n1) :: q) (nx :: r)); auto; [discriminate|].
  apply Forall_cons; auto. unfold kicks. cbn [fst snd]. rewrite V0, V1. apply kick_samples; auto.
Qed.

Lemma zmp_ok : forall n, known n -> k_zmp n = Ok tt.
Proof. intros n [->| ->]; reflexivity. Qed.
Lemma first_ok : forall n nx r e name, (Z.of_nat n <= 2 ^ 50)%Z -> known name ->
  fst nx = instant dT n -> tiles64 (instant dT n) e (nx :: r) -> sane (nx :: r) ->
  exists q, k_first ieee om dT pause mx nom es name (nx :: r) = Ok (q ++ nx :: r)
  /\ tiles64 fzero e (q ++ nx :: r) /\ sane (q ++ nx :: r) /\ q <> []
  /\ ((0 < n)%nat -> (Z.of_nat n <= 2 ^ 30)%Z ->
      (pause = true -> 1001 / 1000 * d <= f2r es /\ 1001 / 1000 * d <= f2r nom /\ f2r es + f2r nom + 1001 / 1000 * d <= f2r mx) ->
      prompt (nx :: r) -> prompt (q ++ nx :: r)).
Proof.
  intros n nx r e name H Hk Hn Ht Hs.
  pose proof (instant_ok n H) as O2.
  destruct (between_ok 0 n ltac:(lia) H) as (q & Q1 & Q2 & Q3 & Q4 & Q5). rewrite instant_0 in Q1, Q2.
  exists q.
  assert (Hx : ok64 (fst nx) /\ ok64 (snd nx)) by (inversion Hs; auto).
  assert (Lx : f2r (fst nx) <= f2r (snd nx)).
  { cbn [tiles64] in Ht. destruct Ht as (Ea & Eb & _). rewrite Ea. apply le64_inv in Eb. rewrite !key_fin in Eb; auto; [apply Hx|apply O2]. }
  split.
  { unfold k_first. replace nx with (fst nx, snd nx) at 1 by (destruct nx; reflexivity). rewrite check_ok by (try tauto; lra). cbn [rbind].
    rewrite (zmp_ok name) by auto. rewrite c0_zero, Hn, Q1. destruct (k_pauses _ _ _ _ _ _); reflexivity. }
  split. { eapply tiles_app; eauto. }
  split. { apply Forall_app. split; auto. }
  split; auto. intros K1 K2 K3 K4. apply prompt_app; auto. discriminate.
Qed.

Section Build.
Variable ord : list string.
Variable shift : list nat.
Hypothesis bnds : boundaries (length ord) shift.
Hypothesis names : forall x, In x ord -> known x.
Hypothesis two : (2 <= length ord)%nat.
Hypothesis end_ok : last shift 0%nat = n_end.
Notation sh i := (nth i shift 0%nat).
Lemma sh_some : forall i, (i < 2 * length ord - 2)%nat -> nth_error shift i = Some (sh i).
Proof. intros i H. apply nth_error_nth'. destruct bnds as (_ & _ & ->). auto. Qed.
Lemma sorted_nth : forall (l : list nat) (P : nat -> nat -> Prop) i j, StronglySorted P l -> (i < j)%nat -> (j < length l)%nat -> P (nth i l 0%nat) (nth j l 0%nat).
Proof.
  induction l as [|a l IH]; intros P i j HS Hi Hj; cbn [length] in Hj; [lia|]. apply StronglySorted_inv in HS. destruct HS as (HS & HF).
  destruct j; [lia|]. destruct i; cbn [nth].
  - rewrite Forall_forall in HF. apply HF. apply nth_In. lia.
  - apply IH; auto; lia.
Qed.
Lemma sh_le : forall i j, (i <= j)%nat -> (j < 2 * length ord - 2)%nat -> (sh i <= sh j)%nat.
Proof.
  intros i j Hi Hj. destruct bnds as (_ & B1 & B2). destruct (Nat.eq_dec i j); [subst; auto|]. apply (sorted_nth shift le); auto; lia.
Qed.
Lemma last_nth : forall (l : list nat), last l 0%nat = nth (length l - 1) l 0%nat.
Proof.
  induction l as [|a l IH]; auto. destruct l as [|b l]; auto. change (last (a :: b :: l) 0%nat) with (last (b :: l) 0%nat). rewrite IH.
  cbn [length]. replace (S (S (length l)) - 1)%nat with (S (S (length l) - 1)) by lia. reflexivity.
Qed.
Lemma sh_last : sh (2 * length ord - 3) = n_end.
Proof. destruct bnds as (_ & _ & B2). rewrite <- end_ok, last_nth, B2. f_equal. lia. Qed.
Lemma sh_50 : forall i, (i < 2 * length ord - 2)%nat -> (Z.of_nat (sh i) <= 2 ^ 50)%Z.
Proof.
  intros i H. pose proof (sh_le i (2 * length ord - 3) ltac:(lia) ltac:(lia)) as L. rewrite sh_last in L. pose proof (kl_n _ _ _ _ _ _ _ _ lim). lia.
Qed.
Lemma sh_0 : sh 0 = 0%nat.
Proof. destruct bnds as (B1 & _). destruct shift; [discriminate|]. cbn in *. congruence. Qed.
Lemma at_ok : forall i, (i < 2 * length ord - 2)%nat -> k_at ieee dT shift i = Ok (instant dT (sh i)).
Proof. intros i H. unfold k_at. rewrite sh_some by auto. reflexivity. Qed.
Lemma name_ok : forall i, (i < length ord)%nat -> exists x, k_name ord i = Ok x /\ known x.
Proof.
  intros i H. unfold k_name. destruct (nth_error ord i) eqn:E; [|apply nth_error_None in E; lia]. exists s. split; auto. apply names. eapply nth_error_In; eauto.
Qed.

Definition long : Prop := k_long still dT pause mx nom es shift.
Lemma long_30 : long -> forall i, (i < 2 * length ord - 2)%nat -> (Z.of_nat (sh i) <= 2 ^ 30)%Z.
Proof. intros H i Hi. pose proof (sh_le i (2 * length ord - 3) ltac:(lia) ltac:(lia)) as L. rewrite sh_last, <- end_ok in L. destruct H. lia. Qed.
Lemma long_lt : long -> forall i j, (i < j)%nat -> (j < 2 * length ord - 2)%nat -> (sh i < sh j)%nat.
Proof. intros H i j Hi Hj. apply (sorted_nth shift lt); auto; [apply H|]. destruct bnds as (_ & _ & ->). auto. Qed.

Lemma loop_ok : forall j nx r, (j + 1 < length ord)%nat -> fst nx = instant dT (sh (2 * j + 1)) ->
  tiles64 (instant dT (sh (2 * j + 1))) (instant dT n_end) (nx :: r) -> sane (nx :: r) -> (long -> prompt (nx :: r)) ->
  exists nx' r', k_loop ieee om dT pause mx nom es ord shift (2 * j) j (nx :: r) = Ok (nx' :: r')
  /\ fst nx' = instant dT (sh 1) /\ tiles64 (instant dT (sh 1)) (instant dT n_end) (nx' :: r') /\ sane (nx' :: r') /\ (long -> prompt (nx' :: r')).
Proof.
  induction j as [|j IH]; intros nx r Hj Hn Ht Hs Hp.
  { exists nx, r. auto. }
  replace (2 * S j)%nat with (S (S (2 * j))) by lia. cbn [k_loop].
  rewrite at_ok by lia. cbn [rbind]. rewrite at_ok by lia. cbn [rbind].
  destruct (name_ok (S j)) as (x & X1 & X2); [lia|]. rewrite X1. cbn [rbind]. rewrite zmp_ok by auto. cbn [rbind].
  change (sub_size (S j) 1) with (Ok (S j - 1)%nat). cbn [rbind]. replace (S j - 1)%nat with j by lia.
  replace (2 * S j + 1)%nat with (2 * j + 3)%nat in * by lia.
  destruct (new_ok (sh (S (2 * j))) (sh (S (S (2 * j)))) (sh (2 * j + 3)) nx r (instant dT n_end)) as (s & q & E1 & E2 & E3 & E4 & E5); auto.
  { apply sh_le; lia. } { apply sh_le; lia. } { apply sh_50. lia. }
  rewrite E1. cbn [rbind]. replace (S (2 * j)) with (2 * j + 1)%nat in * by lia.
  apply IH; auto; [lia|]. intros L. apply E5; auto.
  - apply (long_lt L); lia.
  - apply (long_lt L); lia.
  - apply (long_30 L). lia.
  - apply L.
Qed.

Lemma build_ok : forall lph, lph <> [] \/ length ord = 2%nat ->
  exists tr, k_build ieee om still dT pause mx nom es ord shift lph = Ok tr
  /\ tiles64 fzero (instant dT n_end) tr /\ sane tr /\ tr <> [] /\ (long -> prompt tr).
Proof.
  intros lph Hl. unfold k_build. destruct (Nat.ltb_spec (length ord) 2) as [|_]; [lia|].
  pose proof sh_last as SL. destruct bnds as (_ & _ & BL).
  destruct (Nat.ltb_spec 2 (length ord)) as [H2|H2].
  2:{ assert (E : length ord = 2%nat) by lia. rewrite at_ok by lia. cbn [rbind].
      destruct (name_ok 0) as (x & X1 & X2); [lia|]. rewrite X1. cbn [rbind]. rewrite zmp_ok by auto. cbn [rbind].
      destruct (name_ok 1) as (y & Y1 & Y2); [lia|]. rewrite Y1. cbn [rbind]. rewrite zmp_ok by auto. cbn [rbind].
      rewrite BL, E. change (sub_size (2 * 2 - 2) 1) with (Ok 1%nat). cbn [rbind]. rewrite at_ok by lia. cbn [rbind].
      rewrite E in SL. change (2 * 2 - 3)%nat with 1%nat in SL. rewrite SL, sh_0, instant_0.
      assert (O : ok64 (instant dT n_end)) by (apply instant_ok, (kl_n _ _ _ _ _ _ _ _ lim)).
      assert (L : f2r fzero <= f2r (instant dT n_end)) by (change (f2r fzero) with 0; apply O).
      rewrite mk_ok; [|reflexivity|apply O|auto]. exists [(fzero, instant dT n_end)]. split; [reflexivity|].
      split. { cbn [tiles64 fst snd]. split; [reflexivity|]. split; [apply le_ok; [reflexivity|apply O|auto]|reflexivity]. }
      split. { unfold sane. repeat (apply Forall_cons; [split; auto|]); [apply ok_zero|apply Forall_nil]. }
      split; [discriminate|]. intros _. exact Logic.I. }
  assert (SS : forall a, (1 <= a)%nat -> sub_size a 1 = Ok (a - 1)%nat) by (intros a Ha; unfold sub_size; destruct (Nat.leb_spec 1 a); auto; lia).
  set (m := (length ord - 2)%nat). assert (Em : length ord = (m + 2)%nat) by lia. assert (Hm : (1 <= m)%nat) by lia.
  rewrite BL, Em. rewrite SS by lia. cbn [rbind]. rewrite (SS (m + 2)%nat) by lia. cbn [rbind].
  rewrite at_ok by lia. cbn [rbind]. rewrite SS by lia. cbn [rbind]. rewrite at_ok by lia. cbn [rbind]. rewrite SS by lia. cbn [rbind].
  rewrite at_ok by lia. cbn [rbind]. rewrite SS by lia. cbn [rbind].
  destruct (name_ok (m + 2 - 1)) as (x & X1 & X2); [lia|]. rewrite X1. cbn [rbind]. rewrite zmp_ok by auto. cbn [rbind]. rewrite SS by lia. cbn [rbind].
  destruct (name_ok (m + 2 - 1 - 1)) as (y & Y1 & Y2); [lia|]. rewrite Y1. cbn [rbind]. rewrite zmp_ok by auto. cbn [rbind]. rewrite SS by lia. cbn [rbind].
  replace (2 * (m + 2) - 2 - 1)%nat with (2 * m + 1)%nat by lia. replace (2 * m + 1 - 1)%nat with (2 * m)%nat by lia.
  replace (2 * length ord - 3)%nat with (2 * m + 1)%nat in SL by lia. rewrite SL.
  destruct (last_ok (sh (2 * m - 1)) (sh (2 * m)) n_end) as (s & q & f & E1 & E2 & E3 & E4).
  { apply sh_le; lia. } { rewrite <- SL. apply sh_le; lia. } { apply (kl_n _ _ _ _ _ _ _ _ lim). }
  rewrite E1. cbn [rbind].
  replace (2 * m - 1 - 1)%nat with (2 * (m - 1))%nat by lia. replace (m + 2 - 1 - 1 - 1)%nat with (m - 1)%nat by lia.
  replace (2 * m - 1)%nat with (2 * (m - 1) + 1)%nat in * by lia.
  destruct (loop_ok (m - 1) s [q; f]) as (nx & r & F1 & F2 & F3 & F4 & F5); auto; [lia|apply E2| |].
  { intros L. apply E4.
    - apply (long_lt L); lia.
    - rewrite <- SL. apply (long_30 L). lia.
    - destruct L as [_ _ _ L]. apply (L ltac:(lia)); rewrite BL.
      + replace (2 * length ord - 2 - 2)%nat with (2 * m)%nat by lia. apply sh_some. lia.
      + replace (2 * length ord - 2 - 1)%nat with (2 * m + 1)%nat by lia. rewrite <- SL. apply sh_some. lia. }
  match goal with |- context [rbind ?a _] => replace a with (Ok (nx :: r)) by (symmetry; exact F1) end. cbn [rbind].
  destruct (name_ok 0) as (x0 & X01 & X02); [lia|]. rewrite X01. cbn [rbind].
  destruct (name_ok 1) as (x1 & X11 & X12); [lia|]. rewrite X11. cbn [rbind].
  destruct lph as [|l0 lph]; [destruct Hl; [congruence|lia]|].
  match goal with |- exists tr, k_first _ _ _ _ _ _ _ ?z _ = _ /\ _ => assert (Kz : known z) by (destruct (String.eqb x0 _); auto); set (name := z) in * end.
  destruct (first_ok (sh 1) nx r (instant dT n_end) name) as (q' & G1 & G2 & G3 & G4 & G5); auto.
  { apply sh_50. lia. }
  exists (q' ++ nx :: r). split; auto. split; auto. split; auto. split.
  { destruct q'; discriminate. }
  intros L. apply G5; auto.
  - pose proof (long_lt L 0 1 ltac:(lia) ltac:(lia)). rewrite sh_0 in H. auto.
  - apply (long_30 L). lia.
  - apply L.
Qed.

(** ** Evaluation *)
Lemma eval_ok : forall n i s r, (i + n = n_end)%nat -> (Z.of_nat n_end <= 2 ^ 30)%Z ->
  tiles64 (fst s) (instant dT n_end) (s :: r) -> sane (s :: r) -> prompt r ->
  f2r (fst s) <= T d i -> (T d i <= f2r (snd s) \/ exists j, S j = i /\ T d j <= f2r (snd s)) ->
  exists us, k_eval ieee dT n i (s :: r) = Ok us /\ length us = n /\ served dT (s :: r) i us.
Proof.
  induction n as [|n IH]; intros i s r Hi H30 Ht Hs Hp L0 L1.
  { exists []. split; [reflexivity|]. split; auto. intros k x Hk. destruct k; discriminate. }
  cbn [k_eval a_lt a_mul a_size ieee]. change (fmul (fmake (Z.of_nat i) 0) dT) with (instant dT i).
  destruct (instant_val i ltac:(lia)) as (_ & Vi). pose proof (instant_ok i ltac:(lia)) as Oi.
  destruct (instant_val n_end ltac:(lia)) as (_ & Vn).
  assert (Hh : ok64 (fst s) /\ ok64 (snd s)) by (inversion Hs; auto).
  rewrite blt_ok; [|apply Hh|apply Oi]. rewrite Vi.
  assert (Ti : T d i <= T d n_end) by (apply T_mono; auto; lia).
  assert (Step : forall x r', (x :: r' = s :: r \/ x :: r' = r) -> f2r (fst x) <= T d i <= f2r (snd x) ->
    exists us, (do _ <- k_check ieee dT x (instant dT i); do rest <- k_eval ieee dT n (S i) (x :: r'); Ok (x :: rest)) = Ok us
      /\ length us = S n /\ served dT (s :: r) i us).
  { intros x r' Hx Lx.
    assert (Hx2 : In x (s :: r) /\ sane (x :: r') /\ tiles64 (fst x) (instant dT n_end) (x :: r') /\ prompt r').
    { destruct Hx as [Hx|Hx].
      - inversion Hx; subst. repeat (split; auto). left; auto.
      - subst r. split; [right; left; auto|]. split; [inversion Hs; auto|]. cbn [tiles64] in Ht |- *. destruct Ht as (_ & _ & T1 & T2 & T3).
        split; [rewrite T1; auto|]. destruct r'; [exact Logic.I|]. apply Hp. }
    destruct Hx2 as (X1 & X2 & X3 & X4).
    assert (Ox : ok64 (fst x) /\ ok64 (snd x)) by (inversion X2; auto).
    destruct (IH (S i) x r') as (us & U1 & U2 & U3); auto; try lia.
    { pose proof (T_mono d kd_lo i (S i) ltac:(lia)). lra. }
    { right. exists i. split; auto. apply Lx. }
    assert (Ck : k_check ieee dT x (instant dT i) = Ok tt).
    { clear U1 U3 X3 Hx. destruct x as (xa & xb). apply check_ok; try tauto. rewrite Vi. auto. }
    rewrite Ck. cbn [rbind]. rewrite U1. cbn [rbind]. exists (x :: us). split; auto. split; [cbn [length]; auto|].
    intros k y Hk. destruct k; cbn [nth_error] in Hk.
    - inversion Hk; subst y. replace (i + 0)%nat with i by lia. split; auto. split; apply le_ok; try apply Ox; try apply Oi; rewrite Vi; apply Lx.
    - destruct (U3 k y Hk) as (W1 & W2). replace (i + S k)%nat with (S i + k)%nat by lia. split; auto.
      destruct Hx as [Hx|Hx]; [rewrite <- Hx; auto|]. right. rewrite <- Hx. auto. }
  unfold Rltb. destruct (Rlt_dec (f2r (snd s)) (T d i)) as [Hlt|Hge].
  2:{ apply Step; auto. lra. }
  destruct r as [|x r'].
  { exfalso. cbn [tiles64] in Ht. destruct Ht as (_ & _ & E). rewrite E, Vn in Hlt. lra. }
  apply Step; auto. cbn [tiles64] in Ht. destruct Ht as (_ & _ & E1 & E2 & E3). rewrite E1. split; [lra|].
  destruct L1 as [L1|(j & <- & L1)]; [lra|].
  destruct r' as [|y r'].
  { cbn [tiles64] in E3. rewrite E3, Vn. auto. }
  destruct Hp as (Hp & _). apply Hp; [lia|]. rewrite E1. auto.
Qed.

(** The iterator never leaves the list. *)
Lemma eval_defined : forall n i s r, (i + n <= n_end)%nat -> tiles64 (fst s) (instant dT n_end) (s :: r) -> sane (s :: r) ->
  k_eval ieee dT n i (s :: r) <> UB.
Proof.
  induction n as [|n IH]; intros i s r Hi Ht Hs; [discriminate|].
  pose proof (kl_n _ _ _ _ _ _ _ _ lim) as HN.
  cbn [k_eval a_lt a_mul a_size ieee]. change (fmul (fmake (Z.of_nat i) 0) dT) with (instant dT i).
  destruct (instant_val i ltac:(lia)) as (Fi & Vi). destruct (instant_val n_end ltac:(lia)) as (_ & Vn).
  assert (Hh : ok64 (fst s) /\ ok64 (snd s)) by (inversion Hs; auto).
  rewrite blt_ok; [|apply Hh|apply Fi]. rewrite Vi.
  assert (Step : forall x r', tiles64 (fst x) (instant dT n_end) (x :: r') -> sane (x :: r') ->
    (do _ <- k_check ieee dT x (instant dT i); do rest <- k_eval ieee dT n (S i) (x :: r'); Ok (x :: rest)) <> UB).
  { intros x r' X1 X2. unfold k_check. destruct (k_in ieee dT x (instant dT i)); cbn [rbind]; [|discriminate].
    pose proof (IH (S i) x r' ltac:(lia) X1 X2) as K. destruct (k_eval ieee dT n (S i) (x :: r')); cbn [rbind]; [discriminate|discriminate|congruence]. }
  unfold Rltb. destruct (Rlt_dec (f2r (snd s)) (T d i)) as [Hlt|Hge]; [|apply Step; auto].
  destruct r as [|x r'].
  { exfalso. cbn [tiles64] in Ht. destruct Ht as (_ & _ & E). rewrite E, Vn in Hlt. pose proof (T_mono d kd_lo i n_end ltac:(lia)). lra. }
  cbn [tiles64] in Ht. destruct Ht as (_ & _ & E1 & E2 & E3). apply Step; [|inversion Hs; auto].
  cbn [tiles64]. rewrite E1. auto.
Qed.
Lemma generate_defined : forall lph, lph <> [] \/ length ord = 2%nat -> k_generate ieee om still dT pause mx nom es ord shift lph <> UB.
Proof.
  intros lph Hl. destruct (build_ok lph Hl) as (tr & B1 & B2 & B3 & B4 & _). unfold k_generate. rewrite B1. cbn [rbind].
  destruct tr as [|s r]; [congruence|]. assert (E0 : fst s = fzero) by apply B2.
  assert (Ev : k_evaluate ieee dT shift (s :: r) = k_eval ieee dT n_end 0 (s :: r)).
  { unfold k_evaluate. destruct bnds as (C1 & _ & _). destruct shift as [|a l] eqn:Es; [discriminate|]. inversion C1; subst a.
    rewrite end_ok. unfold sub_size. cbn [Nat.leb rbind]. rewrite Nat.sub_0_r. reflexivity. }
  rewrite Ev. pose proof (eval_defined n_end 0 s r ltac:(lia)) as K. rewrite E0 in K. specialize (K B2 B3).
  destruct (k_eval ieee dT n_end 0 (s :: r)) eqn:E2; cbn [rbind]; [discriminate|discriminate|intros _; exact (K E2)].
Qed.

Lemma prompt_tl : forall s r, prompt (s :: r) -> prompt r.
Proof. intros s [|x r]; cbn [prompt]; intros H; auto. apply H. Qed.

Lemma all_ok : forall lph, lph <> [] \/ length ord = 2%nat -> long ->
  exists tr us, k_generate ieee om still dT pause mx nom es ord shift lph = Ok (tr, us)
  /\ tiles64 fzero (instant dT n_end) tr /\ length us = n_end /\ served dT tr 0 us.
Proof.
  intros lph Hl L. destruct (build_ok lph Hl) as (tr & B1 & B2 & B3 & B4 & B5). specialize (B5 L).
  destruct tr as [|s r]; [congruence|].
  assert (E0 : fst s = fzero) by apply B2.
  destruct (eval_ok n_end 0 s r) as (us & U1 & U2 & U3); auto.
  - rewrite <- end_ok. apply L.
  - rewrite E0. auto.
  - eapply prompt_tl; eauto.
  - rewrite E0. rewrite T_0 by auto. change (f2r fzero) with 0. lra.
  - left. rewrite T_0 by auto. assert (Q : ok64 (snd s)) by (apply (Forall_inv B3)). apply Q.
  - exists (s :: r), us. split; auto. unfold k_generate. rewrite B1. cbn [rbind]. unfold k_evaluate. destruct bnds as (C1 & _ & C3).
    destruct shift as [|a l] eqn:Es; [discriminate|]. inversion C1; subst a.
    rewrite end_ok. unfold sub_size. cbn [Nat.leb rbind]. rewrite Nat.sub_0_r.
    match goal with |- context [k_eval ?p ?q ?n ?i ?x] => replace (k_eval p q n i x) with (Ok us) by (symmetry; exact U1) end. reflexivity.
Qed.
End Build.
End K.
