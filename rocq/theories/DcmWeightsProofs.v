(** Lemmas about the weights in doubles. *)
From Coq Require Import Reals ZArith Lra Lia List Bool Sorting.Sorted.
From Flocq Require Import Core Relative Plus_error IEEE754.BinarySingleNaN.
From Verif Require Import Prelude UnicycleFoot GenPhases GenSpec Rounding RoundedGen RoundedGenSpec RoundedGenProofs3 RoundedGenProofs4
  EvalTac Doubles DoublesSpec DoublesProofs DoublesProofs2 FeetTimesSpec CtrlDoubles DcmWeights DcmWeightsSpec TrackDoublesProofs.
Import ListNotations.
Open Scope R_scope.

(** ** One pair *)
Lemma top1 : 1 <= top.
Proof. eapply Rle_trans; [|apply pow_top]. change 1 with (bpow radix2 0). apply bpow_le. lia. Qed.
Lemma clip_ok : forall x, let w := w_min1 ieee (w_max0 ieee x) in fin w = true /\ 0 <= f2r w <= 1.
Proof.
  intros x. cbv zeta. unfold w_min1, w_max0. rewrite c0_zero, c1_one. cbn [a_lt ieee]. destruct f1_ok as (F1 & V1).
  assert (One : fin f1 = true /\ 0 <= f2r f1 <= 1) by (rewrite V1; split; [exact F1|lra]).
  assert (Zero : fin fzero = true /\ 0 <= f2r fzero <= 1) by (split; [reflexivity|cbn; lra]).
  destruct (Bltb fzero x) eqn:E1.
  - destruct (Bltb x f1) eqn:E2; [|exact One]. pose proof (lt64_number _ _ E1) as (_ & Nx). apply lt64_inv in E1. apply lt64_inv in E2. rewrite key_0 in E1. rewrite key_1 in E2.
    assert (F : fin x = true). { apply key_finite; [exact Nx|]. assert (1 <= bpow radix2 1024) by (change 1 with (bpow radix2 0); apply bpow_le; lia). lra. }
    rewrite (key_fin _ F) in *. split; [exact F|lra].
  - destruct (Bltb fzero f1); [exact Zero|exact One].
Qed.
Lemma b64_below : b64 (1 - bpow radix2 (-54)) = 1.
Proof.
  assert (F : fin (fmake 1 (-54)) = true /\ f2r (fmake 1 (-54)) = bpow radix2 (-54)).
  { destruct (fmake_ok 1 (-54)) as (F & V).
    - unfold F2R. cbn [Fnum Fexp]. rewrite Rmult_1_l, Rabs_pos_eq by apply bpow_ge_0. eapply Rle_trans; [|apply top1]. change 1 with (bpow radix2 0). apply bpow_le. lia.
    - split; [exact F|]. rewrite V. unfold F2R. cbn [Fnum Fexp]. rewrite Rmult_1_l. apply b64_fix. apply generic_format_bpow. unfold b64_exp, FLT_exp. lia. }
  destruct F as (F & V). destruct f1_ok as (F1 & V1). assert (T : bpow radix2 (-54) <= 1) by (change 1 with (bpow radix2 0); apply bpow_le; lia). pose proof (bpow_ge_0 radix2 (-54)).
  destruct (fsub_ok f1 (fmake 1 (-54)) F1 F) as (Fs & Vs); [rewrite V, V1, Rabs_pos_eq by lra; pose proof top1; lra|]. rewrite V, V1 in Vs. rewrite <- Vs.
  assert (E : Beqb (fsub f1 (fmake 1 (-54))) f1 = true) by (vm_compute; reflexivity). rewrite (beq_ok _ _ Fs F1), V1 in E. apply Reqb_true in E. exact E.
Qed.
Lemma half_ulp : forall x, 0 <= x <= 1 -> Rabs (b64 x - x) <= bpow radix2 (-54).
Proof.
  intros x (H0 & [H1| ->]). 2: { rewrite (b64_fix 1 is_b64_1), Rminus_diag_eq, Rabs_R0 by reflexivity. apply bpow_ge_0. }
  destruct H0 as [H0|<-]. 2: { rewrite (b64_fix 0 is_b64_0), Rminus_diag_eq, Rabs_R0 by reflexivity. apply bpow_ge_0. }
  eapply Rle_trans; [apply (error_le_half_ulp radix2 b64_exp (fun z => negb (Z.even z)))|]. rewrite ulp_neq_0 by lra. unfold cexp.
  assert (Mg : (mag radix2 x <= 0)%Z) by (apply mag_le_bpow; [lra|]; rewrite Rabs_pos_eq by lra; exact H1).
  replace (bpow radix2 (-54)) with (/ 2 * bpow radix2 (-53)) by (change (-53)%Z with (1 + -54)%Z; rewrite bpow_plus; change (bpow radix2 1) with 2; field).
  apply Rmult_le_compat_l; [lra|]. apply bpow_le. unfold b64_exp, FLT_exp. lia.
Qed.
Lemma rest_ok : forall w, fin w = true -> 0 <= f2r w <= 1 -> let r := fsub f1 w in fin r = true /\ 0 <= f2r r <= 1 /\ is64 (fadd w r) f1.
Proof.
  intros w F W. cbv zeta. destruct f1_ok as (F1 & V1). pose proof top1 as T1. destruct (fsub_ok f1 w F1 F) as (Fr & Vr); [rewrite V1, Rabs_pos_eq by lra; lra|]. rewrite V1 in Vr.
  pose proof (half_ulp (1 - f2r w) ltac:(lra)) as E. rewrite <- Vr in E. assert (R01 : 0 <= f2r (fsub f1 w) <= 1) by (rewrite Vr; apply b64_unit; lra).
  split; [exact Fr|]. split; [exact R01|]. pose proof (bpow_gt_0 radix2 (-54)) as U0. assert (U1 : bpow radix2 (-54) <= / 16) by (change (/ 16) with (bpow radix2 (-4)); apply bpow_le; lia). apply Rabs_le_inv in E.
  destruct (fadd_ok w (fsub f1 w) F Fr) as (Fs & Vs).
  { assert (2 <= top) by (eapply Rle_trans; [|apply pow_top]; change 2 with (bpow radix2 1); apply bpow_le; lia). rewrite Rabs_pos_eq; lra. }
  unfold is64. rewrite (beq_ok _ _ Fs F1), V1, Vs. apply Reqb_true. apply Rle_antisym.
  - set (s := f2r w + f2r (fsub f1 w)) in *. pose proof (b64_nearest s 1 is_b64_1) as Q. assert (S1 : s <= 1 + bpow radix2 (-54)) by (unfold s; lra). 
    assert (Q2 : b64 s <= 1 + bpow radix2 (-53)). { replace (bpow radix2 (-53)) with (2 * bpow radix2 (-54)) by (change (-53)%Z with (1 + -54)%Z; rewrite bpow_plus; reflexivity). destruct (Rle_or_lt s 1) as [L|L].
      - apply (r_mono _ b64_rounding) in L. rewrite (b64_fix 1 is_b64_1) in L. lra.
      - apply Rabs_le_inv in Q. rewrite (Rabs_left1 (1 - s)) in Q by lra. lra. }
    destruct (Rle_or_lt (b64 s) 1) as [|L]; [assumption|]. exfalso. pose proof (succ_le_lt radix2 b64_exp 1 (b64 s) is_b64_1 (generic_format_round radix2 b64_exp ZnearestE s) L) as K.
    rewrite succ_eq_pos in K by lra. rewrite ulp_neq_0 in K by lra. unfold cexp in K. change 1 with (bpow radix2 0) in K at 2. rewrite mag_bpow in K.
    change (b64_exp (0 + 1)) with (-52)%Z in K. assert (bpow radix2 (-53) < bpow radix2 (-52)) by (apply bpow_lt; lia). lra.
  - rewrite <- b64_below at 1. apply (r_mono _ b64_rounding). lra.
Qed.
Lemma pair_ok : forall M zl zr z, share64 (w_pair ieee M zl zr z) /\ fin (fst (w_pair ieee M zl zr z)) = true /\ fin (snd (w_pair ieee M zl zr z)) = true.
Proof.
  intros M zl zr z. unfold w_pair, w_share. rewrite c1_one. cbn [fst snd a_sub ieee]. destruct (clip_ok (fsub f1 (a_div ieee (w_norm ieee M (w_sub ieee z zl)) (w_norm ieee M (w_sub ieee zr zl))))) as (F & W).
  set (w := w_min1 ieee _) in *. destruct (rest_ok w F W) as (Fr & Wr & S1). destruct f1_ok as (F1 & V1). unfold share64. cbn [fst snd].
  assert (L0 : forall x, fin x = true -> 0 <= f2r x <= 1 -> le64 fzero x /\ le64 x f1).
  { intros x Fx Hx. split; apply le64_key; auto using num0, num1, fin_number; rewrite ?key_0, ?key_1, (key_fin _ Fx); lra. }
  destruct (L0 w F W). destruct (L0 _ Fr Wr). auto 10.
Qed.
