(** Phases: the model of DoublesGen.v at the rounded reals is the model of RoundedGen.v. *)
From Coq Require Import String Reals ZArith List Bool Lia Lra.
From Flocq Require Import Core IEEE754.BinarySingleNaN.
From Verif Require Import Prelude Rounding FootPrint GenPhases GenProofs2 RoundedGen RoundedGenSpec RoundedGenProofs2 RoundedGenProofs3
  Doubles DoublesGen DoublesSpec DoublesProofs DoublesProofs2 DoublesProofs3.
Import ListNotations.
Open Scope R_scope.

Definition rmap {A B : Type} (f : A -> B) (r : res A) : res B := match r with Ok a => Ok (f a) | Fail => Fail | UB => UB end.
Definition strip (o : genout) : list (nstep R) * phases := (map nstep_of (go_ord o), go_ph o).
Definition ncp_of (s : cpst) : ncp R :=
  MkNC (c_lp s) (c_rp s) (c_shift s) (c_cur s) (c_merge s) (c_li s) (c_ri s) (c_prev s) (c_lastLeft s) (c_ub s).

Lemma q11 : a_q rn64 1 1 = 1. Proof. apply c1_rn. Qed.
Lemma q21 : a_q rn64 2 1 = 2.
Proof. simpl. replace (2 / 1) with 2 by field. apply (rnd_2 _ b64_rounding). Qed.

Lemma adjacent_rn : forall l, n_adjacent rn64 (map nstep_of l) = adjacent_equal l.
Proof. induction l as [|a [|b l] IH]; [reflexivity|reflexivity|]. cbn [map n_adjacent adjacent_equal] in *. rewrite IH. reflexivity. Qed.
Lemma order_rn : forall l, n_order rn64 (map nstep_of l) = rmap (map nstep_of) (order_steps l).
Proof.
  intros [|a [|b [|c l]]]; try reflexivity. cbn [map]. unfold n_order, order_steps.
  change (nstep_of c :: map nstep_of l) with (map nstep_of (c :: l)). rewrite adjacent_rn.
  destruct (adjacent_equal (c :: l)); [reflexivity|]. cbn [map]. cbn [n_time n_name nstep_of a_eq rn64 rounded].
  destruct (Reqb _ _ && String.eqb _ _); reflexivity.
Qed.

Lemma last_any : forall {A : Type} (l : list A) d d', l <> [] -> last l d = last l d'.
Proof. induction l as [|x [|y l] IH]; intros d d' H; [contradiction|reflexivity|]. apply IH. discriminate. Qed.
Section S.
Variable s : field -> R.
Variable pause : bool.
Let g := gset_of s pause.

Lemma swing_rn : n_swing rn64 s = nominal_swing_r b64 g.
Proof. reflexivity. Qed.
Lemma switch_rn : forall f sf t, n_switch rn64 s pause f sf t = switch_time_r b64 g (nominal_swing_r b64 g) f sf t.
Proof. intros. unfold n_switch. rewrite q11, q21. reflexivity. Qed.
Lemma step_rn : forall dT nl nr sf k nx c,
  n_step1 rn64 s pause dT nl nr sf k (nstep_of nx) (ncp_of c) = rmap ncp_of (cp_step_r b64 g dT (nominal_swing_r b64 g) nl nr sf k nx c).
Proof.
  intros dT nl nr sf k nx c. unfold n_step1, cp_step_r, below0, n_offset. rewrite c0_rn, q11, switch_rn.
  cbn [a_lt a_sub a_round a_div a_mul a_add a_size rn64 rounded ncp_of nstep_of n_time n_left n_idx x_lp x_rp x_shift x_cur x_merge x_li x_ri x_prev x_lastLeft x_ub].
  set (stepTime := b64 (_ - _)). destruct (Rltb stepTime 0); [reflexivity|].
  set (switchTime := switch_time_r _ _ _ _ _ _).
  destruct (size_round (b64 (stepTime / dT))) as [n| |]; cbn [rbind]; try reflexivity.
  destruct (size_round (b64 (switchTime / dT))) as [n1| |]; cbn [rbind]; try reflexivity.
  destruct (sub_size n n1) as [n2| |]; cbn [rbind]; try reflexivity.
  destruct (negb _ && negb _); [reflexivity|].
  destruct (Nat.eqb k 2); cbn [rbind]; [reflexivity|].
  change (g_mrBegin g) with (s q_mergeB). change (g_mrEnd g) with (s q_mergeE).
  destruct (size_round (b64 (b64 (switchTime * b64 (1 - s q_mergeB)) / dT))) as [o| |]; cbn [rbind]; try reflexivity.
  destruct (size_round (b64 (b64 (switchTime * b64 (1 - s q_mergeE)) / dT))) as [o'| |]; cbn [rbind]; try reflexivity.
  destruct (sub_size _ o) as [m| |]; cbn [rbind]; try reflexivity.
  destruct (sub_size _ o') as [m'| |]; reflexivity.
Qed.
Lemma loop_rn : forall dT nl nr sf l k c,
  n_loop rn64 s pause dT nl nr sf k (map nstep_of l) (ncp_of c) = rmap ncp_of (cp_loop_r b64 g dT (nominal_swing_r b64 g) nl nr sf k l c).
Proof.
  intros dT nl nr sf. induction l as [|nx l IH]; intros k c; [reflexivity|]. cbn [map n_loop cp_loop_r]. rewrite step_rn.
  destruct (cp_step_r _ _ _ _ _ _ _ _ _ _) as [c'| |]; cbn [rmap rbind]; auto.
Qed.
Lemma create_rn : forall dT init nl nr fl fr ord,
  n_create rn64 s pause dT init nl nr fl fr (map nstep_of ord) = create_phases_r b64 g dT init nl nr fl fr ord.
Proof.
  intros dT init nl nr fl fr [|a [|b [|c l]]]; try reflexivity. unfold n_create, create_phases_r.
  cbn [map hd]. change (nstep_of c :: map nstep_of l) with (map nstep_of (c :: l)).
  replace (last (a :: b :: c :: l) a) with (last (c :: l) b) by (apply (last_any (c :: l)); discriminate).
  replace (n_time (last (map nstep_of (c :: l)) (nstep_of b))) with (st_time (t_step (last (c :: l) b))).
  2: { generalize (c :: l) as m, b. induction m as [|x [|y m] IH]; intros; try reflexivity. apply (IH b0). }
  cbn [a_round a_ceil a_div a_add a_sub a_eq rn64 rounded]. change (g_endSwitch g) with (s q_terminal).
  destruct (size_ceil _); cbn [rbind]; try reflexivity.
  pose proof (loop_rn dT nl nr (Reqb fl fr) (c :: l) 2 (MkCP [] [] [0%nat] 0 [0%nat] 1 1 init None false)) as Q.
  unfold ncp_of at 1 in Q. cbn [c_lp c_rp c_shift c_cur c_merge c_li c_ri c_prev c_lastLeft c_ub] in Q.
  change (rounded b64 (f2r fpi)) with rn64. rewrite Q.
  destruct (cp_loop_r _ _ _ _ _ _ _ _ _ _) as [x| |]; cbn [rmap rbind]; try reflexivity.
Qed.
Lemma generate_rn : forall left right init dT srt,
  n_generate rn64 s pause (nfoot_of left) (nfoot_of right) init dT (map nstep_of srt)
  = rmap strip (generate_phases_r b64 g left right init dT srt).
Proof.
  intros left right init dT srt. unfold n_generate, generate_phases_r, fp_number, atmost0. rewrite c0_rn.
  cbn [nf_steps nf_name nfoot_of a_le a_lt rn64 rounded]. rewrite !map_length.
  destruct (Nat.ltb _ _); [reflexivity|]. destruct (Nat.ltb _ _); [reflexivity|]. destruct (String.eqb _ _); [reflexivity|].
  destruct (Rleb dT 0); [reflexivity|]. destruct (fp_steps left) as [|l0 ll]; [reflexivity|]. destruct (fp_steps right) as [|r0 rr]; [reflexivity|].
  cbn [map]. replace (if Rltb (st_time l0) (st_time r0) then st_time r0 else st_time l0) with (Rmax (st_time l0) (st_time r0)).
  2: { unfold Rmax. destruct (Rle_dec _ _); rcases; auto; lra. }
  destruct (Rltb init _); [reflexivity|]. change (rounded b64 (f2r fpi)) with rn64. rewrite order_rn.
  destruct (order_steps srt) as [ord| |]; cbn [rmap rbind]; try reflexivity. rewrite create_rn.
  destruct (create_phases_r _ _ _ _ _ _ _ _ _); reflexivity.
Qed.
End S.
