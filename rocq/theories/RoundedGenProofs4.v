(** Binary64: phases per interval, settings, concrete runs. *)
From Coq Require Import String Reals Lra Lia ZArith List Bool Sorting.Sorted Sorting.Permutation.
From Flocq Require Import Core.
From Verif Require Import Prelude Rounding FootPrint GenPhases GenSpec GenProofs GenProofs2 GenProofs3 GenProofs4 RoundedGen RoundedGenSpec RoundedGenProofs RoundedGenProofs2 RoundedGenProofs3.
Import ListNotations.
Open Scope R_scope.

Lemma interval_phase_s : forall es fl fr pl ph k, PhS es fl fr pl ph ->
  (k < 2 * length pl + 1)%nat -> exists p q, complementary p q
    /\ seg (ph_left ph) (bnd ph k) (bnd ph (S k)) p /\ seg (ph_right ph) (bnd ph k) (bnd ph (S k)) q.
Proof.
  intros es fl fr pl ph k [] Hk. unfold complementary.
  destruct (parity k) as (j & [-> | ->]).
  - destruct (nth_error pl j) as [t|] eqn:E.
    + destruct (p_win _ _ E) as (W1 & W2 & _). replace (S (2 * j)) with (2 * j + 1)%nat by lia.
      destruct (t_left t); simpl in *; [exists SwitchOut, SwitchIn|exists SwitchIn, SwitchOut]; auto 6.
    + apply nth_error_None in E. assert (j = length pl) by lia. subst j. replace (S (2 * length pl)) with (2 * length pl + 1)%nat by lia.
      destruct p_end as [W1 W2]. destruct (last_mover fl fr pl); simpl in *; [exists SwitchIn, SwitchOut|exists SwitchOut, SwitchIn]; auto 6.
  - destruct (nth_error pl j) as [t|] eqn:E.
    + destruct (p_win _ _ E) as (_ & _ & W1 & W2). replace (S (2 * j + 1)) with (2 * j + 2)%nat by lia.
      destruct (t_left t); simpl in *; [exists Swing, Stance|exists Stance, Swing]; auto 6.
    + apply nth_error_None in E. lia.
Qed.

Lemma good64 : forall ops, List.Forall gop_b64 ops -> good_r b64 (settings64 ops).
Proof.
  intros ops H. apply (good_r_history _ b64_rounding). eapply Forall_impl; [|exact H].
  intros []; simpl; intuition auto using b64_fix.
Qed.

(** Nearest: no double is closer. *)
Lemma b64_nearest : forall x y, is_b64 y -> Rabs (b64 x - x) <= Rabs (y - x).
Proof. intros x y H. pose proof (round_N_pt radix2 b64_exp (fun z => negb (Z.even z)) x) as [_ Q]. apply Q. exact H. Qed.

Lemma is_b64_1 : is_b64 1. Proof. apply (is_b64_int 1). lia. Qed.
Lemma is_b64_0 : is_b64 0. Proof. apply (is_b64_int 0). lia. Qed.

Lemma b64_near_one : forall x, 1 - bpow radix2 (-55) <= x <= 1 -> b64 x = 1.
Proof.
  intros x H. pose proof (b64_nearest x 1 is_b64_1) as N. rewrite (Rabs_pos_eq (1 - x)) in N by lra. apply Rabs_le_inv in N.
  assert (L : b64 x <= 1) by (apply (rnd_le _ b64_rounding); [lra|apply b64_fix, is_b64_1]).
  destruct (Rle_lt_or_eq_dec _ _ L) as [Lt|]; auto. exfalso.
  pose proof (pred_ge_gt radix2 b64_exp (b64 x) 1 (b64_is x) is_b64_1 Lt) as Q.
  assert (P : pred radix2 b64_exp 1 = 1 - bpow radix2 (-53)).
  { change 1 with (bpow radix2 0). rewrite pred_bpow. reflexivity. }
  rewrite P in Q. assert (bpow radix2 (-55) * 4 = bpow radix2 (-53)).
  { change 4 with (bpow radix2 2). rewrite <- bpow_plus. reflexivity. }
  pose proof (bpow_gt_0 radix2 (-53)). lra.
Qed.

(** A ratio whose share of the switch phase is rounded to 1. *)
Definition big : R := bpow radix2 60.
Lemma big_b64 : is_b64 big.
Proof. unfold big. replace (bpow radix2 60) with (IZR 1 * bpow radix2 60) by ring. apply is_b64_dyadic; lia. Qed.
Lemma big_val : big = 1152921504606846976. Proof. reflexivity. Qed.
Lemma share_big : b64 (big / b64 (1 + big)) = 1.
Proof.
  pose proof (b64_nearest (1 + big) big big_b64) as N. replace (big - (1 + big)) with (-1) in N by ring.
  rewrite (Rabs_left (-1)) in N by lra. apply Rabs_le_inv in N. pose proof big_val as V.
  assert (L : big <= b64 (1 + big)) by (apply (rnd_ge _ b64_rounding); [lra|apply b64_fix, big_b64]).
  set (y := b64 (1 + big)) in *. apply b64_near_one. change (bpow radix2 (-55)) with (/ 36028797018963968).
  split; apply (Rmult_le_reg_r y); try lra; unfold Rdiv; rewrite Rmult_assoc, Rinv_l by lra; lra.
Qed.
Lemma big_settings : settings64 [GoSwitch big] = MkG 1 1 10 2 true (1 / 2) (1 / 2).
Proof.
  unfold settings64. cbn [fold_left gset_run_r]. unfold set_switchRatio_r. destruct (Rleb big 0) eqn:E.
  - apply Rleb_true in E. rewrite big_val in E. lra.
  - cbn [fst]. rewrite share_big. reflexivity.
Qed.
Lemma share_one : exists r, is_b64 r /\ 0 < r /\ g_switchPct (settings64 [GoSwitch r]) = 1
  /\ forall dT t, 0 < dT -> 0 <= t <= 10 -> is_b64 t -> let g := settings64 [GoSwitch r] in
     n_step b64 dT (switch_time_r b64 g (nominal_swing_r b64 g) false true t) = n_step b64 dT t.
Proof.
  exists big. rewrite big_settings. split; [apply big_b64|]. split; [rewrite big_val; lra|]. split; [reflexivity|].
  intros dT t Hd Ht Hf g. unfold switch_time_r, g. cbn [andb negb g_pause g_maxStep g_switchPct].
  unfold Rgtb. destruct (Rltb 10 t) eqn:E; [apply Rltb_true in E; lra|]. rewrite Rmult_1_l. f_equal. apply b64_fix. exact Hf.
Qed.

(** A step whose swing ends more than half a sampling period away from the impact time. *)
Definition eps64 : R := bpow radix2 (-52).
Definition hT : R := 1 + eps64.
Definition ht : R := 5 / 2 + 2 * eps64.
Lemma eps_val : eps64 = / 4503599627370496. Proof. reflexivity. Qed.
Lemma hT_b64 : is_b64 hT.
Proof.
  replace hT with (IZR 4503599627370497 * bpow radix2 (-52)); [apply is_b64_dyadic; lia|].
  unfold hT. change (bpow radix2 (-52)) with eps64. rewrite eps_val. field.
Qed.
Lemma ht_b64 : is_b64 ht.
Proof.
  replace ht with (IZR 5629499534213121 * bpow radix2 (-51)); [apply is_b64_dyadic; lia|].
  unfold ht. change (bpow radix2 (-51)) with (/ 2251799813685248). rewrite eps_val. field.
Qed.
Lemma b64_2h : is_b64 (5 / 2).
Proof. replace (5 / 2) with (IZR 5 * bpow radix2 (-1)) by (simpl; lra). apply is_b64_dyadic; lia. Qed.
Lemma pred_2h : pred radix2 b64_exp (5 / 2) = 5 / 2 - bpow radix2 (-51).
Proof.
  assert (M : mag radix2 (5 / 2) = 2%Z :> Z).
  { apply mag_unique. rewrite Rabs_pos_eq by lra. change (bpow radix2 (2 - 1)) with 2. change (bpow radix2 2) with 4. lra. }
  rewrite pred_eq_pos by lra. unfold pred_pos. rewrite M. change (bpow radix2 (2 - 1)) with 2.
  rewrite Req_bool_false by lra. f_equal. rewrite ulp_neq_0 by lra. unfold cexp. rewrite M. reflexivity.
Qed.
Lemma quot_2h : b64 (ht / hT) = 5 / 2.
Proof.
  pose proof eps_val as V. set (x := ht / hT).
  assert (X : 5 / 2 - eps64 / 2 < x < 5 / 2).
  { unfold x, ht, hT. split; apply (Rmult_lt_reg_r (1 + eps64)); try lra; unfold Rdiv at 2; rewrite ?Rmult_assoc, ?Rinv_l by lra;
      try (unfold Rdiv; rewrite Rmult_assoc, Rinv_l by lra); rewrite V; lra. }
  pose proof (b64_nearest x _ b64_2h) as N. rewrite (Rabs_pos_eq (5 / 2 - x)) in N by lra. apply Rabs_le_inv in N.
  assert (L : b64 x <= 5 / 2) by (apply (rnd_le _ b64_rounding); [lra|apply b64_fix, b64_2h]).
  destruct (Rle_lt_or_eq_dec _ _ L) as [Lt|]; auto. exfalso.
  pose proof (pred_ge_gt radix2 b64_exp (b64 x) _ (b64_is x) b64_2h Lt) as Q. rewrite pred_2h in Q.
  change (bpow radix2 (-51)) with (/ 2251799813685248) in Q. lra.
Qed.

Definition hL : footprint := MkFP [mk "l" 0] "l".
Definition hR : footprint := MkFP [mk "r" 0; mk "r" ht] "r".
Definition hSrt : list tstep := [MkT true 0 (mk "l" 0); MkT false 0 (mk "r" 0); MkT false 1 (mk "r" ht)].
Lemma h_sort : sort_result (fp_steps hL) (fp_steps hR) hSrt.
Proof.
  split; [apply Permutation_refl|]. pose proof eps_val as V.
  repeat (constructor; [|repeat constructor; unfold tle, ht; simpl; lra]). constructor.
Qed.
Lemma h_walk : walk (fp_steps hL) (fp_steps hR) 0 0 2.
Proof.
  pose proof eps_val as V. constructor; simpl.
  - repeat constructor.
  - repeat constructor; simpl; unfold ht; lra.
  - discriminate.
  - discriminate.
  - intros [|] s H; inversion H; subst; simpl; lra.
  - intros [|] [|[|[|i]]] s [Hi H]; simpl in *; try discriminate; try lia. inversion H; subst; simpl. unfold ht. lra.
  - intros [|] [|[|[|i]]] s [|] [|[|[|j]]] s' [Hi H] [Hj H'] Hne; simpl in *; try discriminate; try lia; congruence.
Qed.

Lemma half_sample_missed : exists left right dT srt out t e,
  is_b64 dT /\ times_b64 (fp_steps left ++ fp_steps right) /\ sort_result (fp_steps left) (fp_steps right) srt
  /\ generate_phases_r b64 (settings64 []) left right 0 dT srt = Ok out
  /\ nth_error (planned (go_ord out)) 0 = Some t /\ nth_error (ph_shift (go_ph out)) 2 = Some e
  /\ dT / 2 < Rabs (0 + INR e * dT - st_time (t_step t)).
Proof.
  pose proof eps_val as V. pose proof (good64 [] (Forall_nil _)) as G.
  assert (HD : 0 < hT) by (unfold hT; lra).
  assert (D0 : bpow radix2 (-900) <= hT).
  { apply Rle_trans with (bpow radix2 0); [apply bpow_le; lia|]. change (bpow radix2 0) with 1. unfold hT; lra. }
  assert (A : exists out, generate_phases_r b64 (settings64 []) hL hR 0 hT hSrt = Ok out).
  { apply (walk_r_accepted _ hT 0 4 G D0) with (gap := 2).
    - unfold hT. lra.
    - change (bpow radix2 50) with 1125899906842624. unfold hT. lra.
    - rewrite Rabs_R0. lra.
    - discriminate.
    - apply h_sort.
    - simpl. unfold hT. lra.
    - rewrite u64_val. unfold hT. lra.
    - intros s [<-|[<-|[<-|[]]]]; simpl; rewrite Rabs_pos_eq; unfold ht; lra.
    - apply h_walk. }
  destruct A as (out & A). exists hL, hR, hT, hSrt, out, (MkT false 1 (mk "r" ht)), 3%nat.
  split; [apply hT_b64|]. split.
  { intros s [<-|[<-|[<-|[]]]]; simpl; auto using is_b64_0, ht_b64. }
  split; [apply h_sort|]. split; [exact A|].
  destruct (generate_r_inv _ b64_rounding _ _ _ _ _ _ _ G A) as (l0 & r0 & H1 & H2 & _ & _ & _ & _ & Ho & _ & _ & _ & _ & _ & C).
  assert (O : exists a b, go_ord out = [a; b; MkT false 1 (mk "r" ht)]).
  { unfold hSrt in Ho. cbn [order_steps adjacent_equal] in Ho. destruct (_ && _) in Ho; inversion Ho; eauto. }
  destruct O as (a & b & O).
  rewrite O in *. split; [reflexivity|]. split.
  - cbn [create_phases_r] in C. apply rbind_ok in C. destruct C as (tot & _ & C).
    apply rbind_ok in C. destruct C as (s & Hs & C). cbn [cp_loop_r] in Hs. apply rbind_ok in Hs. destruct Hs as (s1 & Hs1 & Hs).
    inversion Hs; subst s1; clear Hs.
    destruct (cp_step_r_inv _ b64_rounding _ G hT HD _ _ _ _ _ _ _ Hs1) as (_ & Ad & _). cbn [t_step mk st_time c_prev] in Ad.
    destruct Ad as (_ & _ & _ & _ & Hsh & _). cbn [c_shift c_cur app] in Hsh.
    apply rbind_ok in C. destruct C as (es & _ & C). apply rbind_ok in C. destruct C as (ml & _ & C).
    inversion C. cbn [ph_shift]. rewrite Hsh. cbn [app nth_error]. f_equal. rewrite Nat.add_0_l.
    unfold n_step. rewrite Rminus_0_r, (b64_fix ht) by apply ht_b64. rewrite quot_2h. apply nround_imp; simpl; lra.
  - cbn [t_step mk st_time]. simpl INR. unfold hT, ht. rewrite Rabs_pos_eq; lra.
Qed.

Lemma example64 : exists dT out, dT = b64 (1 / 100) /\ List.Forall gop_b64 [GoSwitch (1 / 4); GoTerminal 2]
  /\ sort_result (fp_steps exL) (fp_steps exR) exSrt
  /\ generate_phases_r b64 (settings64 [GoSwitch (1 / 4); GoTerminal 2]) exL exR 0 dT exSrt = Ok out
  /\ (dT <= 2 * g_endSwitch (settings64 [GoSwitch (1 / 4); GoTerminal 2])) /\ bpow radix2 (-900) <= dT <= 8 /\ 8 <= bpow radix2 50 * dT.
Proof.
  assert (F : List.Forall gop_b64 [GoSwitch (1 / 4); GoTerminal 2]).
  { constructor; [|constructor; [|constructor]]; simpl.
    - replace (1 / 4) with (IZR 1 * bpow radix2 (-2)) by (simpl; lra). apply is_b64_dyadic; lia.
    - apply (is_b64_int 2). lia. }
  assert (S2 : g_endSwitch (settings64 [GoSwitch (1 / 4); GoTerminal 2]) = 2).
  { unfold settings64. cbn [fold_left gset_run_r gset_run]. unfold set_terminalSwitch.
    destruct (Rleb 2 0) eqn:E; [apply Rleb_true in E; lra|reflexivity]. }
  assert (D : 1 / 128 <= b64 (1 / 100) <= 1).
  { split; [apply (rnd_ge _ b64_rounding)|apply (rnd_le _ b64_rounding)]; try lra.
    - apply b64_fix. replace (1 / 128) with (IZR 1 * bpow radix2 (-7)) by (simpl; lra). apply is_b64_dyadic; lia.
    - apply b64_fix, is_b64_1. }
  set (dT := b64 (1 / 100)) in *.
  assert (D0 : bpow radix2 (-900) <= dT).
  { apply Rle_trans with (bpow radix2 (-7)); [apply bpow_le; lia|]. change (bpow radix2 (-7)) with (/ 128). lra. }
  assert (D2 : 8 <= bpow radix2 50 * dT) by (change (bpow radix2 50) with 1125899906842624; lra).
  assert (A : exists out, generate_phases_r b64 (settings64 [GoSwitch (1 / 4); GoTerminal 2]) exL exR 0 dT exSrt = Ok out).
  { apply (walk_r_accepted _ dT 0 8 (good64 _ F) D0) with (gap := 1); auto.
    - lra.
    - rewrite Rabs_R0. lra.
    - discriminate.
    - apply ex_sort.
    - rewrite S2. lra.
    - rewrite u64_val. lra.
    - intros s [<-|[<-|[<-|[<-|[]]]]]; simpl; rewrite Rabs_pos_eq; lra.
    - destruct ex_walk. constructor; auto. intros b i s H. destruct (w_later _ _ _ H). lra. }
  destruct A as (out & A). exists dT, out. rewrite S2. split; [reflexivity|]. split; [exact F|]. split; [apply ex_sort|]. split; [exact A|]. lra.
Qed.
