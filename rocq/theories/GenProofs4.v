From Coq Require Import String Reals Lra Lia ZArith List Bool Sorting.Sorted Sorting.Permutation.
From Flocq Require Import Core.Raux.
From Verif Require Import Prelude Rounding FootPrint GenPhases GenSpec GenProofs GenProofs2 GenProofs3.
Import ListNotations.
Open Scope R_scope.

Lemma create_swings : forall g dT init nl nr fl fr ord lead gap ph, good_settings g -> 0 < dT ->
  dT <= (1 - g_switchPct g) * g_nomStep g ->
  dT <= (1 - g_switchPct g) * (gap - dT / 2) -> dT <= (1 - g_switchPct g) * lead ->
  match planned ord with [] => True | t :: q => init + lead <= st_time (t_step t) /\ spaced (st_time (t_step t)) gap (map t_step q) end ->
  create_phases g dT init nl nr fl fr ord = Ok ph ->
  forall k, (k < length (planned ord))%nat -> (bnd ph (2 * k + 1) < bnd ph (2 * k + 2))%nat.
Proof.
  intros g dT init nl nr fl fr [|a [|b [|c tl0]]] lead gap ph G Hd Hn Hg Hl Hsp H; try discriminate.
  - simpl. intros; lia.
  - unfold planned in *. cbn [tl] in *. cbn [create_phases] in H.
    set (pl := c :: tl0) in *.
    apply rbind_ok in H. destruct H as (tot & _ & H).
    apply rbind_ok in H. destruct H as (s & Hs & H).
    assert (I : Inv dT init pl s).
    { change pl with ([] ++ pl). eapply Inv_loop; [exact G|exact Hd| |apply Inv_0|exact Hs]. reflexivity. }
    assert (SW : forall j, (j < length ([] ++ pl))%nat -> (sh s (2 * j + 1) < sh s (2 * j + 2))%nat).
    { eapply loop_swings; [exact G|exact Hd|exact Hn|exact Hg|exact Hl| |apply Inv_0| | | |exact Hs]; auto.
      - simpl. intros; lia.
      - simpl. tauto.
      - simpl. tauto. }
    simpl app in SW.
    apply rbind_ok in H. destruct H as (es & _ & H). apply rbind_ok in H. destruct H as (ml & _ & H).
    inversion H; subst ph; clear H. intros k Hk. unfold bnd; cbn [ph_shift]. rewrite !nth_snoc.
    destruct I. rewrite i_len. specialize (SW k Hk). unfold sh in SW.
    destruct (Nat.ltb_spec (2 * k + 1) (2 * length pl + 1)); [|lia].
    destruct (Nat.ltb_spec (2 * k + 2) (2 * length pl + 1)); [|lia]. auto.
Qed.

Lemma order_planned : forall srt ord, order_steps srt = Ok ord -> planned ord = planned srt.
Proof.
  intros [|a [|b tl]] ord H; simpl in H; try discriminate.
  - inversion H; auto.
  - destruct (adjacent_equal tl); [discriminate|]. destruct tl as [|c tl]; [inversion H; auto|].
    destruct (_ && _); inversion H; auto.
Qed.

Lemma generate_swings : forall g left right init dT srt out lead gap, good_settings g ->
  sort_result (fp_steps left) (fp_steps right) srt ->
  walk (fp_steps left) (fp_steps right) init lead gap ->
  dT <= (1 - g_switchPct g) * g_nomStep g ->
  dT <= (1 - g_switchPct g) * (gap - dT / 2) -> dT <= (1 - g_switchPct g) * lead ->
  generate_phases g left right init dT srt = Ok out ->
  forall k, (k < length (planned (go_ord out)))%nat -> (bnd (go_ph out) (2 * k + 1) < bnd (go_ph out) (2 * k + 2))%nat.
Proof.
  intros g left right init dT srt out lead gap G [P Sd] W Hn Hg Hl H.
  assert (Hd : 0 < dT). { destruct (generate_inv _ _ _ _ _ _ _ G H) as (? & ? & _ & _ & D & _). auto. }
  assert (Hg0 : 0 < gap).
  { pose proof (good_pct g G). destruct (Rle_or_lt (gap - dT / 2) 0).
    - assert ((1 - g_switchPct g) * (gap - dT / 2) <= (1 - g_switchPct g) * 0) by (apply Rmult_le_compat_l; lra). lra.
    - lra. }
  unfold generate_phases, fp_number in H.
  destruct (fp_steps left) as [|l0 l] eqn:El; [discriminate|].
  destruct (fp_steps right) as [|r0 r] eqn:Er; [discriminate|]. cbn [length Nat.ltb Nat.leb] in H.
  destruct (String.eqb _ _); [discriminate|]. destruct (Rleb dT 0); [discriminate|]. destruct (Rltb _ _); [discriminate|].
  apply rbind_ok in H. destruct H as (ord & Ho & H). apply rbind_ok in H. destruct H as (ph & Hp & H).
  inversion H; subst out; clear H. cbn [go_ord go_ph].
  assert (Es : enumerates (l0 :: l) (r0 :: r) srt) by (eapply enumerates_perm; [apply Permutation_sym; exact P|apply all_steps_enumerates]).
  destruct (ord_structure _ _ _ _ _ _ Hg0 W Es Sd) as (a & b & pl & -> & A1 & A2 & A3 & A4 & A5 & A6 & A7 & A8 & A9).
  assert (Sp : StronglySorted tle pl) by (inversion Sd as [|? ? Q ?]; inversion Q; auto).
  pose proof (planned_spaced _ _ _ _ _ pl Hg0 W A8 A9 Sp) as SP.
  eapply create_swings; [exact G|exact Hd|exact Hn|exact Hg|exact Hl| |exact Hp].
  rewrite (order_planned _ _ Ho). exact SP.
Qed.

(** Indices used to address the step lists never exceed the sizes (one past the end at most). *)
Lemma foot_indices_in : forall b t pl, In t pl -> t_left t = b -> In (t_idx t) (foot_indices b pl).
Proof. intros b t pl H E. unfold foot_indices. apply in_map, filter_In. subst. split; auto. apply Bool.eqb_reflx. Qed.

Lemma index_bound : forall l r a b pre post dT init s, enumerates l r (a :: b :: pre ++ post) ->
  l <> [] -> r <> [] -> Inv dT init pre s -> (c_li s <= length l)%nat /\ (c_ri s <= length r)%nat.
Proof.
  intros l r a b pre post dT init s [ND IN] Nl Nr I. destruct I.
  assert (B : forall b0 n, (1 <= n)%nat -> foot_indices b0 pre = seq 1 (n - 1) -> foot_list l r b0 <> [] -> (n <= length (foot_list l r b0))%nat).
  { intros b0 n Hn E Ne. destruct (Nat.eq_dec n 1) as [->|].
    - destruct (foot_list l r b0); [congruence|simpl; lia].
    - assert (J : In (n - 1)%nat (foot_indices b0 pre)) by (rewrite E; apply in_seq; lia).
      unfold foot_indices in J. apply in_map_iff in J. destruct J as (t & J1 & J2). apply filter_In in J2. destruct J2 as [J2 J3].
      apply Bool.eqb_prop in J3. destruct t as [tb ti ts]. simpl in *. subst tb ti.
      assert (K : nth_error (foot_list l r b0) (n - 1) = Some ts).
      { apply IN. right; right. apply in_or_app; auto. }
      assert (n - 1 < length (foot_list l r b0))%nat by (apply nth_error_Some; congruence). lia. }
  split; [apply (B true)|apply (B false)]; simpl; tauto.
Qed.

(** Concrete runs. *)
Definition mk (n : string) (t : R) : step := MkStep vzero 0 t n.

Lemma size_round_imp : forall x n, INR n - / 2 <= x < INR n + / 2 -> 0 <= x -> size_round x = Ok n.
Proof. intros x n H Hx. rewrite size_round_ok by auto. f_equal. apply nround_imp; auto. Qed.

Ltac realdec := rcases; try (exfalso; simpl in *; lra).

(** A regular walk: right foot at 2 s, left at 4 s. *)
Definition exL : footprint := MkFP [mk "l" 0; mk "l" 4] "l".
Definition exR : footprint := MkFP [mk "r" 0; mk "r" 2] "r".
Definition exSrt : list tstep :=
  [MkT true 0 (mk "l" 0); MkT false 0 (mk "r" 0); MkT false 1 (mk "r" 2); MkT true 1 (mk "l" 4)].

Lemma ex_sort : sort_result (fp_steps exL) (fp_steps exR) exSrt.
Proof.
  split.
  - unfold exSrt, exL, exR, all_steps. simpl.
    apply perm_skip. apply Permutation_sym. apply (Permutation_cons_app [_; _] []). simpl. apply Permutation_refl.
  - repeat (constructor; [|repeat constructor; unfold tle; simpl; lra]). constructor.
Qed.

Lemma ex_walk : walk (fp_steps exL) (fp_steps exR) 0 1 1.
Proof.
  constructor; simpl.
  - repeat constructor; simpl; lra.
  - repeat constructor; simpl; lra.
  - discriminate.
  - discriminate.
  - intros [|] s H; inversion H; simpl; lra.
  - intros [|] [|[|i]] s [H1 H2]; simpl in *; try lia; try (inversion H2; simpl; lra);
      destruct i; discriminate.
  - intros [|] [|[|i]] s [|] [|[|i']] s' [H1 H2] [H3 H4] N; simpl in *; try lia; try (destruct i; discriminate); try (destruct i'; discriminate);
      inversion H2; inversion H4; subst; simpl; try congruence; unfold Rabs; destruct (Rcase_abs _); lra.
Qed.

Lemma ex_accepted : exists out, generate_phases gset_new exL exR 0 (1/100) exSrt = Ok out.
Proof.
  apply (walk_accepted _ _ _ _ _ _ 1); try (simpl; lra).
  - apply good_new.
  - discriminate.
  - apply ex_sort.
  - destruct ex_walk. constructor; auto. intros b i s H. destruct (w_later _ _ _ H). lra.
Qed.

(** Late start: the size estimate is converted from a negative number. *)
Definition lateL : footprint := MkFP [mk "l" 0] "l".
Definition lateR : footprint := MkFP [mk "r" 0; mk "r" 1] "r".
Definition lateSrt : list tstep := [MkT true 0 (mk "l" 0); MkT false 0 (mk "r" 0); MkT false 1 (mk "r" 1)].
Definition lateOrd : list tstep :=
  [MkT false 0 (mk "r" 0); MkT true 0 (mk "l" 0); MkT false 1 (mk "r" 1)].

Lemma late_sort : sort_result (fp_steps lateL) (fp_steps lateR) lateSrt.
Proof.
  split; [apply Permutation_refl|].
  repeat (constructor; [|repeat constructor; unfold tle; simpl; lra]). constructor.
Qed.

Lemma late_ub : generate_phases gset_new lateL lateR 10 1 lateSrt = UB.
Proof.
  unfold generate_phases. cbn -[Rltb Rleb Rmax order_steps create_phases Reqb].
  destruct (Rleb 1 0) eqn:E; [apply Rleb_true in E; lra|].
  destruct (Rltb 10 (Rmax 0 0)) eqn:E2.
  { apply Rltb_true in E2. unfold Rmax in E2. destruct (Rle_dec 0 0); lra. }
  assert (O : order_steps lateSrt = Ok lateOrd).
  { unfold order_steps, lateSrt. cbn -[Reqb]. destruct (Reqb 0 0) eqn:E9; [reflexivity|]. apply Reqb_false in E9. lra. }
  fold lateSrt. rewrite O. cbn [rbind]. unfold create_phases, lateOrd. cbn [last hd t_step mk st_time].
  assert (C : size_ceil ((1 - 10 + g_endSwitch gset_new) / 1) = UB).
  { unfold size_ceil, to_size. simpl. replace ((1 - 10 + 1) / 1) with (IZR (-8)) by lra. rewrite Zceil_IZR. reflexivity. }
  rewrite C. reflexivity.
Qed.

(** One block, as used by the following runs: right foot at 4 s, sampling 1 s. *)
Definition shortL : footprint := MkFP [mk "l" 0] "l".
Definition shortR : footprint := MkFP [mk "r" 0; mk "r" 4] "r".
Definition shortSrt : list tstep := [MkT true 0 (mk "l" 0); MkT false 0 (mk "r" 0); MkT false 1 (mk "r" 4)].
Definition shortOrd : list tstep :=
  [MkT false 0 (mk "r" 0); MkT true 0 (mk "l" 0); MkT false 1 (mk "r" 4)].
Definition shortG : gset := fold_left gset_run [GoTerminal (1/10)] gset_new.

Lemma shortG_eq : shortG = MkG (1/2) (1/10) 10 2 true (1/2) (1/2).
Proof. unfold shortG. simpl. unfold set_terminalSwitch. rcases; simpl; auto; lra. Qed.

Lemma short_sort : sort_result (fp_steps shortL) (fp_steps shortR) shortSrt.
Proof.
  split; [apply Permutation_refl|].
  repeat (constructor; [|repeat constructor; unfold tle; simpl; lra]). constructor.
Qed.

Lemma short_run : exists out, generate_phases shortG shortL shortR 0 1 shortSrt = Ok out
  /\ ph_shift (go_ph out) = [0%nat; 2%nat; 4%nat; 4%nat]
  /\ ph_right (go_ph out) = [SwitchOut; SwitchOut; Swing; Swing]
  /\ ph_left (go_ph out) = [SwitchIn; SwitchIn; Stance; Stance]
  /\ ph_merge (go_ph out) = [0%nat; 3%nat] /\ ph_ub (go_ph out) = true.
Proof.
  rewrite shortG_eq. unfold generate_phases. cbn -[Rltb Rleb Rmax order_steps create_phases Reqb].
  destruct (Rleb 1 0) eqn:E; [apply Rleb_true in E; lra|].
  destruct (Rltb 0 (Rmax 0 0)) eqn:E2.
  { apply Rltb_true in E2. unfold Rmax in E2. destruct (Rle_dec 0 0); lra. }
  assert (O : order_steps shortSrt = Ok shortOrd).
  { unfold order_steps, shortSrt. cbn -[Reqb]. destruct (Reqb 0 0) eqn:E9; [reflexivity|]. apply Reqb_false in E9. lra. }
  fold shortSrt. rewrite O. cbn [rbind]. unfold create_phases, shortOrd. cbn [last hd t_step mk st_time].
  cbn [g_switchPct g_endSwitch g_maxStep g_nomStep g_pause g_mrBegin g_mrEnd].
  match goal with |- context [size_ceil ?x] => destruct (size_ceil_nonneg x) as (n & ->); [lra|] end. cbn [rbind cp_loop].
  unfold cp_step. cbn [c_prev t_step mk st_time t_left t_idx c_li c_ri c_cur c_lp c_rp c_shift c_merge c_ub Nat.eqb].
  destruct (Rltb (4 - 0) 0) eqn:E3; [apply Rltb_true in E3; lra|].
  unfold switch_time. cbn [g_switchPct g_endSwitch g_maxStep g_nomStep g_pause].
  destruct (Reqb 0 0) eqn:E4; [|apply Reqb_false in E4; lra].
  destruct (Rgtb (4 - 0) 10) eqn:E5; [unfold Rgtb in E5; apply Rltb_true in E5; lra|]. cbn [negb andb].
  rewrite (size_round_imp ((4 - 0) / 1) 4) by (simpl; lra). cbn [rbind].
  rewrite (size_round_imp (1/2 * (4 - 0) / 1) 2) by (simpl; lra). cbn -[size_round].
  rewrite (size_round_imp (1/10/1) 0) by (simpl; lra). cbn.
  eexists; split; [reflexivity|]. simpl. auto.
Qed.

(** Two fast steps: duplicated merge point. *)
Definition dupL : footprint := MkFP [mk "l" 0; mk "l" 2] "l".
Definition dupR : footprint := MkFP [mk "r" 0; mk "r" 1] "r".
Definition dupSrt : list tstep :=
  [MkT true 0 (mk "l" 0); MkT false 0 (mk "r" 0); MkT false 1 (mk "r" 1); MkT true 1 (mk "l" 2)].
Definition dupOrd : list tstep :=
  [MkT false 0 (mk "r" 0); MkT true 0 (mk "l" 0); MkT false 1 (mk "r" 1); MkT true 1 (mk "l" 2)].

Lemma dup_sort : sort_result (fp_steps dupL) (fp_steps dupR) dupSrt.
Proof.
  split.
  - unfold dupSrt, dupL, dupR, all_steps. simpl.
    apply perm_skip. apply Permutation_sym. apply (Permutation_cons_app [_; _] []). simpl. apply Permutation_refl.
  - repeat (constructor; [|repeat constructor; unfold tle; simpl; lra]). constructor.
Qed.

Lemma dup_run : exists out, generate_phases gset_new dupL dupR 0 1 dupSrt = Ok out
  /\ ph_merge (go_ph out) = [0%nat; 2%nat; 2%nat].
Proof.
  unfold generate_phases. cbn -[Rltb Rleb Rmax order_steps create_phases Reqb gset_new].
  destruct (Rleb 1 0) eqn:E; [apply Rleb_true in E; lra|].
  destruct (Rltb 0 (Rmax 0 0)) eqn:E2.
  { apply Rltb_true in E2. unfold Rmax in E2. destruct (Rle_dec 0 0); lra. }
  assert (O : order_steps dupSrt = Ok dupOrd).
  { unfold order_steps, dupSrt. cbn -[Reqb]. destruct (Reqb 1 2) eqn:E3; [apply Reqb_true in E3; lra|]. destruct (Reqb 0 0) eqn:E9; [reflexivity|]. apply Reqb_false in E9. lra. }
  fold dupSrt. rewrite O. cbn [rbind]. unfold create_phases, dupOrd. cbn [last hd t_step mk st_time].
  unfold gset_new. cbn [g_switchPct g_endSwitch g_maxStep g_nomStep g_pause g_mrBegin g_mrEnd].
  match goal with |- context [size_ceil ?x] => destruct (size_ceil_nonneg x) as (n & ->); [lra|] end. cbn [rbind cp_loop].
  unfold cp_step at 1. cbn [c_prev t_step mk st_time t_left t_idx c_li c_ri c_cur c_lp c_rp c_shift c_merge c_ub Nat.eqb].
  destruct (Rltb (1 - 0) 0) eqn:E3; [apply Rltb_true in E3; lra|].
  unfold switch_time at 1. cbn [g_switchPct g_endSwitch g_maxStep g_nomStep g_pause].
  destruct (Reqb 0 0) eqn:E4; [|apply Reqb_false in E4; lra].
  destruct (Rgtb (1 - 0) 10) eqn:E5; [unfold Rgtb in E5; apply Rltb_true in E5; lra|]. cbn [negb andb].
  rewrite (size_round_imp ((1 - 0) / 1) 1) by (simpl; lra). cbn [rbind].
  rewrite (size_round_imp (1/2 * (1 - 0) / 1) 1) by (simpl; lra). cbn -[size_round cp_step].
  unfold cp_step at 1. cbn [c_prev t_step mk st_time t_left t_idx c_li c_ri c_cur c_lp c_rp c_shift c_merge c_ub Nat.eqb].
  destruct (Rltb (2 - (0 + 1 * 1)) 0) eqn:E6; [apply Rltb_true in E6; lra|].
  unfold switch_time. cbn [g_switchPct g_endSwitch g_maxStep g_nomStep g_pause g_mrBegin g_mrEnd].
  destruct (Rgtb (2 - (0 + 1 * 1)) 10) eqn:E7; [unfold Rgtb in E7; apply Rltb_true in E7; lra|]. cbn [negb andb].
  rewrite (size_round_imp ((2 - (0 + 1 * 1)) / 1) 1) by (simpl; lra). cbn [rbind].
  rewrite (size_round_imp (1/2 * (2 - (0 + 1 * 1)) / 1) 1) by (simpl; lra). cbn -[size_round].
  rewrite (size_round_imp (1/2 * (2 - (0 + 1 * 1)) * (1 - 1/2) / 1) 0) by (simpl; lra). cbn -[size_round].
  rewrite (size_round_imp (1/1) 1) by (simpl; lra). cbn.
  eexists; split; [reflexivity|]. reflexivity.
Qed.
