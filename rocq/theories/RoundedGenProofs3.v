(** Binary64: [b64] is a rounding, and how far the phase boundaries are from the impact times. *)
From Coq Require Import String Reals Lra Lia ZArith List Bool Sorting.Sorted Sorting.Permutation.
From Flocq Require Import Core Relative.
From Verif Require Import Prelude Rounding FootPrint GenPhases GenSpec GenProofs GenProofs2 GenProofs3 RoundedGen RoundedGenSpec RoundedGenProofs RoundedGenProofs2.
Import ListNotations.
Open Scope R_scope.

#[global] Instance prec53 : Prec_gt_0 53. Proof. reflexivity. Qed.
#[global] Instance valid64 : Valid_exp b64_exp := FLT_exp_valid (-1074) 53.

Lemma b64_fix : forall x, is_b64 x -> b64 x = x.
Proof. intros x H. apply round_generic; [apply valid_rnd_N|exact H]. Qed.
Lemma b64_is : forall x, is_b64 (b64 x).
Proof. intros x. apply generic_format_round; [apply valid64|apply valid_rnd_N]. Qed.
Lemma is_b64_dyadic : forall m e, (Z.abs m < 2 ^ 53)%Z -> (-1074 <= e)%Z -> is_b64 (IZR m * bpow radix2 e).
Proof.
  intros m e Hm He. unfold is_b64, b64_exp. apply generic_format_FLT. exists (Float radix2 m e); auto.
Qed.
Lemma is_b64_int : forall z, (Z.abs z <= 2 ^ 53)%Z -> is_b64 (IZR z).
Proof.
  intros z H. destruct (Z.eq_dec (Z.abs z) (2 ^ 53)) as [E|E].
  - assert (z = 2 ^ 53 \/ z = - 2 ^ 53)%Z as [-> | ->] by lia.
    + replace (IZR (2 ^ 53)) with (IZR 1 * bpow radix2 53) by (rewrite Rmult_1_l; reflexivity). apply is_b64_dyadic; lia.
    + replace (IZR (- 2 ^ 53)) with (IZR (-1) * bpow radix2 53) by (change (bpow radix2 53) with (IZR (2 ^ 53)); rewrite <- mult_IZR; reflexivity). apply is_b64_dyadic; lia.
  - replace (IZR z) with (IZR z * bpow radix2 0) by (simpl; ring). apply is_b64_dyadic; lia.
Qed.
Lemma is_b64_INR : forall n, (Z.of_nat n <= 2 ^ 53)%Z -> b64 (INR n) = INR n.
Proof. intros n H. apply b64_fix. rewrite INR_IZR_INZ. apply is_b64_int. lia. Qed.

Lemma b64_rounding : rounding b64.
Proof.
  constructor.
  - intros x y H. apply round_le; [apply valid64|apply valid_rnd_N|auto].
  - intros x. unfold b64. apply round_NE_opp.
  - intros x. apply b64_fix, b64_is.
  - apply b64_fix. replace (1 / 2) with (IZR 1 * bpow radix2 (-1)) by (simpl; lra). apply is_b64_dyadic; lia.
  - intros x Hx. apply b64_fix. assert (Fx : is_b64 x) by (rewrite <- Hx; apply b64_is).
    unfold is_b64, b64_exp in *. apply FLT_format_generic in Fx; [|apply prec53]. destruct Fx as [f Ef Em Ee].
    apply generic_format_FLT. exists (Float radix2 (Fnum f) (Fexp f + 1)).
    + rewrite Ef. unfold F2R. cbn [Fnum Fexp]. rewrite bpow_plus. change (bpow radix2 1) with 2. ring.
    + exact Em.
    + cbn [Fexp]. lia.
Qed.

(** Unit roundoff and underflow unit. *)
Definition u64 : R := / 2 * bpow radix2 (-52).
Definition eta64 : R := / 2 * bpow radix2 (-1074).
Lemma u64_val : u64 = / 9007199254740992.
Proof. unfold u64. change (bpow radix2 (-52)) with (/ 4503599627370496). lra. Qed.
Lemma eta64_pos : 0 <= eta64.
Proof. unfold eta64. pose proof (bpow_ge_0 radix2 (-1074)). lra. Qed.
Lemma b64_near : forall x X, Rabs x <= X -> Rabs (b64 x - x) <= u64 * X + eta64.
Proof.
  intros x X HX. destruct (error_N_FLT radix2 (-1074) 53 ltac:(reflexivity) (fun z => negb (Z.even z)) x) as (e & h & E1 & E2 & _ & E).
  change (b64 x = x * (1 + e) + h) in E. rewrite E. replace (x * (1 + e) + h - x) with (x * e + h) by ring.
  eapply Rle_trans; [apply Rabs_triang|]. apply Rplus_le_compat; [|exact E2].
  rewrite Rabs_mult, Rmult_comm. apply Rmult_le_compat; auto using Rabs_pos.
Qed.

Section Time.
Variables (g : gset) (dT init B : R).
Hypothesis G : good_r b64 g.
Hypothesis D0 : bpow radix2 (-900) <= dT.
Hypothesis D1 : dT <= B.
Hypothesis D2 : B <= bpow radix2 50 * dT.
Hypothesis I0 : Rabs init <= B.

Let w : R := u64 * B.
Lemma dT_pos : 0 < dT.
Proof. eapply Rlt_le_trans; [apply bpow_gt_0|exact D0]. Qed.
Lemma w_small : 0 <= w /\ 1000000 * w <= B.
Proof.
  pose proof dT_pos. unfold w. rewrite u64_val. split; [|lra]. apply Rmult_le_pos; lra.
Qed.
Lemma eta_small : 0 <= eta64 /\ 1000 * eta64 <= w /\ 1000 * (eta64 * dT) <= w.
Proof.
  pose proof dT_pos as P. split; [apply eta64_pos|].
  assert (E : eta64 * 1000 <= u64 * bpow radix2 (-900)).
  { unfold eta64, u64. replace (/ 2 * bpow radix2 (-52) * bpow radix2 (-900)) with (/ 2 * bpow radix2 (-952)) by (rewrite Rmult_assoc, <- bpow_plus; reflexivity).
    assert (H : bpow radix2 (-1074) * bpow radix2 10 <= bpow radix2 (-952)) by (rewrite <- bpow_plus; apply bpow_le; lia).
    assert (B10 : bpow radix2 10 = 1024) by reflexivity. rewrite B10 in H. pose proof (bpow_ge_0 radix2 (-1074)). lra. }
  assert (U : 0 <= u64) by (rewrite u64_val; lra).
  assert (Q : u64 * bpow radix2 (-900) <= w). { unfold w. apply Rmult_le_compat_l; lra. }
  split; [lra|].
  assert (eta64 * 1000 <= u64).
  { eapply Rle_trans; [exact E|]. rewrite <- (Rmult_1_r u64) at 2. apply Rmult_le_compat_l; auto.
    change 1 with (bpow radix2 0). apply bpow_le. lia. }
  assert (eta64 * 1000 * dT <= u64 * B) by (apply Rmult_le_compat; try lra; pose proof eta64_pos; lra). unfold w. lra.
Qed.

(** One step of the clock: [p] is previouStepTime, [t] the next impact time. *)
Lemma clock_step : forall p t, Rabs p <= 2 * B -> Rabs t <= B -> 0 <= b64 (t - p) ->
  let n := n_step b64 dT (b64 (t - p)) in
  let p' := b64 (p + b64 (b64 (INR n) * dT)) in
  Rabs (p + INR n * dT - t) <= dT / 2 + 7 * w
  /\ Rabs (p' - (p + INR n * dT)) <= 6 * w
  /\ Rabs p' <= 2 * B.
Proof.
  intros p t Hp Ht H0 n p'. pose proof dT_pos as P. destruct w_small as [W0 W1]. destruct eta_small as (E0 & E1 & E2).
  set (x := b64 (t - p)) in *.
  assert (X1 : Rabs (x - (t - p)) <= 3 * w + eta64).
  { unfold x. eapply Rle_trans; [apply (b64_near _ (3 * B))|unfold w; lra]. apply Rabs_le. apply Rabs_le_inv in Hp. apply Rabs_le_inv in Ht. lra. }
  apply Rabs_le_inv in Hp. apply Rabs_le_inv in Ht. apply Rabs_le_inv in X1.
  assert (X2 : 0 <= x <= 3 * B + 4 * w) by lra.
  assert (X3 : 0 <= x / dT) by (apply div_nonneg; lra).
  assert (Y : Rabs (b64 (x / dT) - x / dT) <= u64 * (x / dT) + eta64) by (apply b64_near; rewrite Rabs_pos_eq; lra).
  destruct (nround_bounds (b64 (x / dT))) as [N1 N2]. { apply (rnd_nonneg _ b64_rounding); auto. }
  fold (n_step b64 dT x) in N1, N2. fold n in N1, N2.
  set (m := INR n * dT) in *. assert (U : 0 <= u64) by (rewrite u64_val; lra).
  assert (Z : Rabs (m - x) <= dT / 2 + 7 / 2 * w).
  { apply Rabs_le_inv in Y. set (z := b64 (x / dT)) in *.
    assert (Q1 : (z - x / dT) * dT <= (u64 * (x / dT) + eta64) * dT) by (apply Rmult_le_compat_r; lra).
    assert (Q2 : - (u64 * (x / dT) + eta64) * dT <= (z - x / dT) * dT) by (apply Rmult_le_compat_r; lra).
    replace ((z - x / dT) * dT) with (z * dT - x) in Q1, Q2 by (field; lra).
    replace ((u64 * (x / dT) + eta64) * dT) with (u64 * x + eta64 * dT) in Q1 by (field; lra).
    replace (- (u64 * (x / dT) + eta64) * dT) with (- (u64 * x + eta64 * dT)) in Q2 by (field; lra).
    assert (Q3 : u64 * x <= 3 * w + w / 100).
    { apply Rle_trans with (u64 * (3 * B + 4 * w)); [apply Rmult_le_compat_l; lra|].
      assert (u64 * w <= w / 1000). { replace (w / 1000) with (/ 1000 * w) by field. apply Rmult_le_compat_r; auto. rewrite u64_val. lra. }
      unfold w in *. lra. }
    assert (Q4 : (INR n - / 2) * dT <= z * dT) by (apply Rmult_le_compat_r; lra).
    assert (Q5 : z * dT <= (INR n + / 2) * dT) by (apply Rmult_le_compat_r; lra).
    apply Rabs_le. unfold m. lra. }
  apply Rabs_le_inv in Z.
  assert (Nb : b64 (INR n) = INR n).
  { apply is_b64_INR. apply le_IZR. rewrite <- INR_IZR_INZ. replace (IZR (2 ^ 53)) with (8 * bpow radix2 50) by (change (bpow radix2 50) with (IZR (2 ^ 50)); rewrite <- mult_IZR; reflexivity).
    apply (Rmult_le_reg_r dT); auto. fold m. lra. }
  unfold p'. rewrite Nb. fold m.
  assert (M0 : 0 <= m) by (unfold m; apply Rmult_le_pos; [apply pos_INR|lra]).
  assert (Y1 : Rabs (b64 m - m) <= u64 * (4 * B) + eta64) by (apply b64_near; rewrite Rabs_pos_eq; lra).
  replace (u64 * (4 * B)) with (4 * w) in Y1 by (unfold w; ring). apply Rabs_le_inv in Y1.
  assert (Y2 : Rabs (b64 (p + b64 m) - (p + b64 m)) <= u64 * (8 / 5 * B) + eta64).
  { apply b64_near. apply Rabs_le. lra. }
  replace (u64 * (8 / 5 * B)) with (8 / 5 * w) in Y2 by (unfold w; ring). apply Rabs_le_inv in Y2.
  split; [|split]; apply Rabs_le; lra.
Qed.

Record InvT (done : list tstep) (s : cpst) : Prop := MkInvT {
  it_s : InvS done s;
  it_prev : Rabs (c_prev s - (init + INR (c_cur s) * dT)) <= INR (length done) * (6 * w);
  it_bound : Rabs (c_prev s) <= 2 * B;
  it_time : forall k t, nth_error done k = Some t ->
    Rabs (init + INR (sh s (2 * k + 2)) * dT - st_time (t_step t)) <= dT / 2 + INR (S k) * (8 * w);
  it_last : match rev done with
            | [] => c_prev s = init
            | t :: _ => Rabs (c_prev s - st_time (t_step t)) <= dT / 2 + 13 * w
            end
}.

Lemma InvT_0 : InvT [] (MkCP [] [] [0%nat] 0 [0%nat] 1 1 init None false).
Proof.
  pose proof dT_pos. constructor; cbn [c_prev c_cur length INR rev]; auto.
  - apply InvS_0.
  - replace (init - (init + 0 * dT)) with 0 by ring. rewrite Rabs_R0. lra.
  - lra.
  - intros k t H1. destruct k; discriminate.
Qed.

Lemma InvT_step : forall nl nr sf k nx s s' done, k = (2 + length done)%nat -> InvT done s ->
  Rabs (st_time (t_step nx)) <= B ->
  cp_step_r b64 g dT (nominal_swing_r b64 g) nl nr sf k nx s = Ok s' -> InvT (done ++ [nx]) s'.
Proof.
  intros nl nr sf k nx s s' done Hk I Ht H. pose proof dT_pos as P. destruct w_small as [W0 _].
  destruct (cp_step_r_inv _ b64_rounding g G dT P _ _ _ _ _ _ _ H) as (T0 & A & Hp). destruct I as [Is Ip Ib It Il].
  set (t := st_time (t_step nx)) in *. destruct (clock_step (c_prev s) t Ib Ht T0) as (C1 & C2 & C3).
  set (n := n_step b64 dT (b64 (t - c_prev s))) in *. rewrite <- Hp in C2, C3.
  pose proof (InvS_step _ _ _ _ _ _ _ Hk Is A) as Is'.
  destruct A as (_ & _ & _ & _ & Hsh & Hcur & _).
  assert (SH : forall i, (i <= 2 * length done)%nat -> sh s' i = sh s i).
  { intros i Hi. unfold sh. rewrite Hsh. apply app_nth1. rewrite (i_len _ _ Is). lia. }
  apply Rabs_le_inv in Ip. apply Rabs_le_inv in C1. apply Rabs_le_inv in C2.
  assert (CUR : INR (c_cur s') * dT = INR (c_cur s) * dT + INR n * dT) by (rewrite Hcur, plus_INR; ring).
  constructor; auto.
  - rewrite CUR, app_length, plus_INR. cbn [length INR]. apply Rabs_le. lra.
  - intros j u Hj. destruct (Nat.lt_ge_cases j (length done)) as [Hlt|Hge].
    + rewrite nth_error_app1 in Hj by auto. rewrite SH by lia. auto.
    + rewrite nth_error_app2 in Hj by auto. destruct (j - length done)%nat eqn:E; [|destruct n0; discriminate].
      simpl in Hj. inversion Hj; subst u; clear Hj. assert (j = length done) by lia. subst j. fold t.
      replace (2 * length done + 2)%nat with (2 * length (done ++ [nx]))%nat by (rewrite app_length; simpl; lia).
      rewrite (i_cur _ _ Is'), CUR, S_INR. apply Rabs_le. pose proof (pos_INR (length done)) as Q.
      assert (0 <= INR (length done) * w) by (apply Rmult_le_pos; auto). lra.
  - rewrite rev_app_distr. simpl. fold t. apply Rabs_le. lra.
Qed.

Lemma InvT_loop : forall nl nr sf tl k s s' done, k = (2 + length done)%nat -> InvT done s ->
  (forall t, In t tl -> Rabs (st_time (t_step t)) <= B) ->
  cp_loop_r b64 g dT (nominal_swing_r b64 g) nl nr sf k tl s = Ok s' -> InvT (done ++ tl) s'.
Proof.
  intros nl nr sf tl. induction tl as [|nx tl IH]; intros k s s' done Hk I Hb H; cbn [cp_loop_r] in H.
  - inversion H; subst. rewrite app_nil_r. auto.
  - apply rbind_ok in H. destruct H as (s1 & H1 & H).
    replace (done ++ nx :: tl) with ((done ++ [nx]) ++ tl) by (rewrite <- app_assoc; reflexivity).
    eapply IH; [|eapply InvT_step; eauto|intros; apply Hb; simpl; auto|exact H].
    + rewrite app_length. simpl. lia.
    + apply Hb. simpl. auto.
Qed.

(** The k-th swing ends at the impact time, up to half a sample and the rounding of the clock. *)
Lemma create_r_time : forall nl nr fl fr ord ph,
  (forall t, In t (planned ord) -> Rabs (st_time (t_step t)) <= B) ->
  create_phases_r b64 g dT init nl nr fl fr ord = Ok ph ->
  forall k t, nth_error (planned ord) k = Some t ->
  Rabs (init + INR (bnd ph (2 * k + 2)) * dT - st_time (t_step t)) <= dT / 2 + INR (S k) * (8 * w).
Proof.
  intros nl nr fl fr [|a [|b [|c tl]]] ph Hb H k t Hk; try (destruct k; discriminate).
  cbn [create_phases_r planned List.tl] in H, Hb, Hk. set (pl := c :: tl) in *.
  apply rbind_ok in H. destruct H as (tot & _ & H). apply rbind_ok in H. destruct H as (s & Hs & H).
  assert (I : InvT pl s). { change pl with ([] ++ pl). eapply InvT_loop; [|apply InvT_0|exact Hb|exact Hs]. reflexivity. }
  apply rbind_ok in H. destruct H as (es & _ & H). apply rbind_ok in H. destruct H as (ml & _ & H). inversion H; subst ph; clear H.
  assert (Hkn : (k < length pl)%nat) by (apply nth_error_Some; congruence).
  unfold bnd. cbn [ph_shift]. rewrite app_nth1 by (rewrite (i_len _ _ (it_s _ _ I)); lia).
  apply (it_time _ _ I). exact Hk.
Qed.

(** Walks are accepted. *)
Lemma cp_step_r_accepts : forall nl nr sf k nx s, c_prev s <= st_time (t_step nx) ->
  t_idx nx = (if t_left nx then c_li s else c_ri s) ->
  exists s', cp_step_r b64 g dT (nominal_swing_r b64 g) nl nr sf k nx s = Ok s'.
Proof.
  intros nl nr sf k nx s Ht Hi. apply (cp_step_r_accept _ b64_rounding g G dT dT_pos); auto.
  apply (rnd_nonneg _ b64_rounding). lra.
Qed.

Lemma next_index : forall done nx tl s, InvS done s ->
  (exists n, foot_indices true (done ++ nx :: tl) = seq 1 n) -> (exists n, foot_indices false (done ++ nx :: tl) = seq 1 n) ->
  t_idx nx = (if t_left nx then c_li s else c_ri s).
Proof.
  intros done nx tl s I (n1 & HL) (n2 & HR). destruct I. rewrite foot_indices_app in HL, HR.
  change (nx :: tl) with ([nx] ++ tl) in HL, HR. rewrite foot_indices_app in HL, HR.
  assert (Q : forall m c n x rest, (1 <= c)%nat -> seq 1 (c - 1) ++ [x] ++ rest = seq 1 n -> m = x -> m = c).
  { intros m c n x rest Hc Hs ->. assert (Hn : nth_error (seq 1 n) (c - 1) = Some x).
    { rewrite <- Hs, nth_error_app2 by (rewrite seq_length; lia). rewrite seq_length, Nat.sub_diag. reflexivity. }
    assert (c - 1 < n)%nat. { rewrite <- (seq_length n 1). apply nth_error_Some. congruence. }
    rewrite (nth_error_nth' _ 0%nat) in Hn by (rewrite seq_length; auto). rewrite seq_nth in Hn by auto. inversion Hn. lia. }
  destruct (t_left nx) eqn:E.
  - destruct i_li as [A1 A2]. rewrite A1 in HL. replace (foot_indices true [nx]) with [t_idx nx] in HL by (unfold foot_indices; simpl; rewrite E; reflexivity).
    exact (Q _ _ n1 (t_idx nx) (foot_indices true tl) A2 HL eq_refl).
  - destruct i_ri as [A1 A2]. rewrite A1 in HR. replace (foot_indices false [nx]) with [t_idx nx] in HR by (unfold foot_indices; simpl; rewrite E; reflexivity).
    exact (Q _ _ n2 (t_idx nx) (foot_indices false tl) A2 HR eq_refl).
Qed.

Lemma loop_r_accepts : forall nl nr sf gap tl done k s,
  dT / 2 + 16 * w <= gap -> k = (2 + length done)%nat -> InvT done s ->
  (forall t, In t tl -> Rabs (st_time (t_step t)) <= B) ->
  (exists n, foot_indices true (done ++ tl) = seq 1 n) -> (exists n, foot_indices false (done ++ tl) = seq 1 n) ->
  match rev done with [] => spaced init 0 (map t_step (firstn 1 tl)) | t :: _ => spaced (st_time (t_step t)) gap (map t_step (firstn 1 tl)) end ->
  (match tl with [] => True | t :: r => spaced (st_time (t_step t)) gap (map t_step r) end) ->
  exists s', cp_loop_r b64 g dT (nominal_swing_r b64 g) nl nr sf k tl s = Ok s'.
Proof.
  intros nl nr sf gap tl. induction tl as [|nx tl IH]; intros done k s Hg Hk I Hb HL HR H1 H2; cbn [cp_loop_r]; [eauto|].
  destruct w_small as [W0 _].
  assert (T : c_prev s <= st_time (t_step nx)).
  { pose proof (it_last _ _ I) as Q. destruct (rev done) as [|t rd]; simpl in H1; [lra|]. apply Rabs_le_inv in Q. lra. }
  destruct (cp_step_r_accepts nl nr sf k nx s T (next_index _ _ _ _ (it_s _ _ I) HL HR)) as (s1 & Hs1). rewrite Hs1. cbn [rbind].
  apply (IH (done ++ [nx])); auto.
  - rewrite app_length. simpl. lia.
  - eapply InvT_step; eauto. apply Hb. simpl. auto.
  - intros; apply Hb; simpl; auto.
  - rewrite <- app_assoc. exact HL.
  - rewrite <- app_assoc. exact HR.
  - rewrite rev_app_distr. simpl. destruct tl as [|t2 tl]; simpl; auto. simpl in H2. tauto.
  - destruct tl as [|t2 tl]; auto. simpl in H2. tauto.
Qed.

Lemma walk_r_accepted : forall left right srt gap,
  fp_name left <> fp_name right -> sort_result (fp_steps left) (fp_steps right) srt ->
  dT <= 2 * g_endSwitch g -> dT / 2 + 16 * w <= gap ->
  (forall s, In s (fp_steps left ++ fp_steps right) -> Rabs (st_time s) <= B) ->
  walk (fp_steps left) (fp_steps right) init 0 gap ->
  exists out, generate_phases_r b64 g left right init dT srt = Ok out.
Proof.
  intros left right srt gap Hn Hs He Hg Hb W. pose proof dT_pos as Hd. destruct w_small as [W0 _].
  assert (Hg0 : 0 < gap) by lra.
  unfold generate_phases_r, fp_number. pose proof W as WW. destruct W.
  destruct (fp_steps left) as [|l0 l] eqn:El; [congruence|].
  destruct (fp_steps right) as [|r0 r] eqn:Er; [congruence|]. cbn [length Nat.ltb Nat.leb].
  apply String.eqb_neq in Hn. rewrite Hn.
  destruct (Rleb dT 0) eqn:Ed; [apply Rleb_true in Ed; lra|].
  destruct (Rltb _ _) eqn:Ei.
  { apply Rltb_true in Ei. pose proof (w_first true l0 eq_refl). pose proof (w_first false r0 eq_refl).
    unfold Rmax in Ei. destruct (Rle_dec _ _); lra. }
  destruct Hs as [P Sd].
  assert (Es : enumerates (l0 :: l) (r0 :: r) srt) by (eapply enumerates_perm; [apply Permutation_sym; exact P|apply all_steps_enumerates]).
  destruct (ord_structure _ _ _ _ _ _ Hg0 WW Es Sd) as (a & b & pl & -> & A1 & A2 & A3 & A4 & A5 & A6 & A7 & A8 & A9).
  assert (Sp : StronglySorted tle pl) by (inversion Sd as [|? ? Q ?]; inversion Q; auto).
  pose proof (planned_spaced _ _ _ _ _ pl Hg0 WW A8 A9 Sp) as SP.
  assert (AE : adjacent_equal pl = false).
  { apply (adjacent_spaced gap); auto. destruct pl; auto; tauto. }
  assert (O : exists a' b', order_steps (a :: b :: pl) = Ok (a' :: b' :: pl)).
  { simpl. rewrite AE. destruct pl; eauto. destruct (_ && _); eauto. }
  destruct O as (a' & b' & O). rewrite O. cbn [rbind].
  assert (BB : forall t, In t pl -> Rabs (st_time (t_step t)) <= B).
  { intros t Ht. apply Hb. destruct (A8 t Ht) as [_ Q]. apply in_or_app. destruct (t_left t); simpl in Q; apply nth_error_In in Q; auto. }
  assert (C : exists ph, create_phases_r b64 g dT init (S (length l)) (S (length r)) (st_time l0) (st_time r0) (a' :: b' :: pl) = Ok ph).
  { pose proof (gr_end _ g G) as GE. pose proof (n_ok _ b64_rounding dT Hd (g_endSwitch g) ltac:(lra)) as NE.
    destruct pl as [|c pl].
    - cbn [create_phases_r]. rewrite NE. cbn [rbind]. eauto.
    - cbn [create_phases_r].
      match goal with |- context [size_ceil ?x] => destruct (size_ceil_nonneg x) as (n & ->) end.
      { set (d := hd _ _). set (lt := st_time (t_step (last _ _))).
        assert (st_time (t_step c) <= lt).
        { unfold lt. rewrite !last_cons. destruct pl as [|c2 pl]; [simpl; lra|].
          assert (L := sorted_last (c :: c2 :: pl) c c Sp (or_introl eq_refl)). unfold tle in L. rewrite last_cons in L. exact L. }
        assert (N : forall x, 0 <= x -> 0 <= b64 x) by apply (rnd_nonneg _ b64_rounding).
        assert (0 <= b64 (lt - init)) by (apply N; lra).
        assert (0 <= b64 (b64 (b64 (lt - init) + g_endSwitch g) / dT)) by (apply N, div_nonneg; auto; apply N; lra). lra. }
      cbn [rbind].
      destruct (loop_r_accepts (S (length l)) (S (length r)) (Reqb (st_time l0) (st_time r0)) gap (c :: pl) [] 2
                 (MkCP [] [] [0%nat] 0 [0%nat] 1 1 init None false)) as (s & ->); auto; try lra.
      + apply InvT_0.
      + simpl app. eauto.
      + simpl app. eauto.
      + simpl. tauto.
      + tauto.
      + cbn [rbind]. rewrite NE. cbn [rbind].
        pose proof (end_samples_r _ b64_rounding g dT G Hd He). rewrite sub_size_le by lia. cbn [rbind]. eauto. }
  destruct C as (ph & ->). cbn [rbind]. eauto.
Qed.
End Time.
