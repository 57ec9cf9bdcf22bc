(** The rounded phase computation: inversion of a run, absence of wrap-arounds, settings. *)
From Coq Require Import String Reals Lra Lia ZArith List Bool Sorting.Sorted Sorting.Permutation.
From Verif Require Import Prelude Rounding FootPrint GenPhases GenSpec GenProofs GenProofs2 GenProofs3 RoundedGen RoundedGenSpec RoundedGenProofs.
Import ListNotations.
Open Scope R_scope.

(** With exact arithmetic the rounded model is the exact one. *)
Lemma exact_create : forall g dT init nl nr fl fr ord,
  create_phases_r (fun x => x) g dT init nl nr fl fr ord = create_phases g dT init nl nr fl fr ord.
Proof.
  intros g dT init nl nr fl fr [|a [|b [|c tl]]]; reflexivity.
Qed.
Lemma exact_generate : forall g left right init dT srt,
  generate_phases_r (fun x => x) g left right init dT srt = generate_phases g left right init dT srt.
Proof.
  reflexivity.
Qed.
Lemma exact_rounding : rounding (fun x => x).
Proof. constructor; auto. Qed.

(** Settings that arise in rounded arithmetic: as [good_settings], but the switch share may reach 0 and 1. *)
Record good_r (rnd : R -> R) (g : gset) : Prop := MkGoodR {
  gr_pct : 0 <= g_switchPct g <= 1;
  gr_end : 0 < g_endSwitch g;
  gr_nom : 0 < g_nomStep g <= g_maxStep g;
  gr_mr : 0 <= g_mrBegin g <= g_mrEnd g /\ g_mrEnd g <= 1;
  gr_rnom : rnd (g_nomStep g) = g_nomStep g;
  gr_rend : rnd (g_endSwitch g) = g_endSwitch g
}.

Section R.
Variable rnd : R -> R.
Hypothesis RR : rounding rnd.

Lemma rnd_0 : rnd 0 = 0.
Proof. pose proof (r_opp _ RR 0) as H. rewrite Ropp_0 in H. lra. Qed.
Lemma rnd_1 : rnd 1 = 1.
Proof. pose proof (r_twice _ RR (1 / 2) (r_half _ RR)) as H. replace (2 * (1 / 2)) with 1 in H by field. exact H. Qed.
Lemma rnd_2 : rnd 2 = 2.
Proof. pose proof (r_twice _ RR 1 rnd_1) as H. replace (2 * 1) with 2 in H by ring. exact H. Qed.
Lemma rnd_nonneg : forall x, 0 <= x -> 0 <= rnd x.
Proof. intros x H. rewrite <- rnd_0. apply (r_mono _ RR); auto. Qed.
Lemma rnd_le : forall x y, x <= y -> rnd y = y -> rnd x <= y.
Proof. intros x y H E. rewrite <- E. apply (r_mono _ RR); auto. Qed.
Lemma rnd_ge : forall x y, y <= x -> rnd y = y -> y <= rnd x.
Proof. intros x y H E. rewrite <- E at 1. apply (r_mono _ RR); auto. Qed.

Lemma good_r_new : good_r rnd gset_new.
Proof. constructor; simpl; try lra. apply rnd_2. apply rnd_1. Qed.

(** The arguments of a setter are representable. *)
Definition gop_r (o : gop) : Prop :=
  match o with
  | GoSwitch r => rnd r = r
  | GoTerminal t => rnd t = t
  | GoPause m n => rnd m = m /\ rnd n = n
  | GoMerge b e => rnd b = b /\ rnd e = e
  | GoPauseActive _ | GoDisablePause => True
  end.

Lemma good_r_run : forall o g, good_r rnd g -> gop_r o -> good_r rnd (gset_run_r rnd g o).
Proof.
  intros o g [A B C D E F] Ho. destruct o; simpl in *; try (constructor; simpl; assumption).
  - unfold set_switchRatio_r. rcases; simpl; [constructor; auto|]. constructor; simpl; auto.
    assert (Q : r <= rnd (1 + r)) by (apply rnd_ge; [lra|exact Ho]). split.
    + apply rnd_nonneg, div_nonneg; lra.
    + apply rnd_le; [|apply rnd_1]. apply (Rmult_le_reg_r (rnd (1 + r))); [lra|]. field_simplify; lra.
  - unfold set_terminalSwitch. rcases; simpl; constructor; simpl; auto.
  - unfold set_pauseConditions. rcases; simpl; constructor; simpl; auto; try lra; tauto.
  - unfold set_mergeRatio. rcases; simpl; constructor; simpl; auto; lra.
Qed.

Lemma good_r_history : forall ops, List.Forall gop_r ops -> good_r rnd (fold_left (gset_run_r rnd) ops gset_new).
Proof.
  intros ops H. assert (Q : forall g, good_r rnd g -> good_r rnd (fold_left (gset_run_r rnd) ops g)).
  { induction H; simpl; auto. intros g Hg. apply IHForall, good_r_run; auto. }
  apply Q, good_r_new.
Qed.

Section S.
Variable g : gset.
Hypothesis G : good_r rnd g.

Lemma nominal_bounds : 0 <= nominal_swing_r rnd g <= g_nomStep g.
Proof.
  destruct G as [A B C D E F]. unfold nominal_swing_r.
  assert (P : 0 <= g_switchPct g * g_nomStep g) by (apply Rmult_le_pos; lra).
  assert (Q : 0 <= rnd (g_switchPct g * g_nomStep g) <= g_nomStep g).
  { split; [apply rnd_nonneg; auto|]. apply rnd_le; auto. rewrite <- (Rmult_1_l (g_nomStep g)) at 2. apply Rmult_le_compat_r; lra. }
  split; [apply rnd_nonneg; lra|]. apply rnd_le; [lra|exact E].
Qed.

Lemma switch_bounds : forall f sf t, 0 <= t -> rnd t = t ->
  0 <= switch_time_r rnd g (nominal_swing_r rnd g) f sf t <= t.
Proof.
  intros f sf t Ht Rt. pose proof nominal_bounds as NB. destruct G as [A B C D E F]. unfold switch_time_r.
  set (p := g_switchPct g) in *. destruct (f && negb sf).
  - assert (H1 : 0 <= rnd (p / 2) <= 1 / 2) by (split; [apply rnd_nonneg; lra|apply rnd_le; [lra|apply (r_half _ RR)]]).
    assert (H2 : 1 / 2 <= rnd (1 - rnd (p / 2)) <= 1).
    { split; [apply rnd_ge; [lra|apply (r_half _ RR)]|apply rnd_le; [lra|apply rnd_1]]. }
    set (q := rnd (1 - rnd (p / 2))) in *.
    assert (H3 : 0 <= rnd (p / q) <= 2).
    { split; [apply rnd_nonneg, div_nonneg; lra|]. apply rnd_le; [|apply rnd_2]. apply (Rmult_le_reg_r q); [lra|]. field_simplify; lra. }
    assert (H4 : 0 <= rnd (rnd (p / q) * t) <= 2 * t).
    { split; [apply rnd_nonneg, Rmult_le_pos; lra|]. apply rnd_le; [apply Rmult_le_compat_r; lra|apply (r_twice _ RR); auto]. }
    split; [apply rnd_nonneg; lra|apply rnd_le; [lra|auto]].
  - destruct (g_pause g && Rgtb t (g_maxStep g)) eqn:Bb.
    + apply andb_true_iff in Bb. destruct Bb as [_ Bb]. unfold Rgtb in Bb. apply Rltb_true in Bb.
      split; [apply rnd_nonneg; lra|apply rnd_le; [lra|auto]].
    + split; [apply rnd_nonneg, Rmult_le_pos; lra|]. apply rnd_le; auto. rewrite <- (Rmult_1_l t) at 2. apply Rmult_le_compat_r; lra.
Qed.

Section D.
Variable dT : R.
Hypothesis Hd : 0 < dT.

(** Sample counts of one step. *)
Definition n_step (t : R) : nat := nround (rnd (t / dT)).
Lemma n_mono : forall a b, 0 <= a <= b -> (n_step a <= n_step b)%nat.
Proof.
  intros a b H. apply nround_mono. split; [apply rnd_nonneg, div_nonneg; lra|]. apply (r_mono _ RR), div_mono; lra.
Qed.
Lemma n_ok : forall a, 0 <= a -> size_round (rnd (a / dT)) = Ok (n_step a).
Proof. intros a H. apply size_round_ok, rnd_nonneg, div_nonneg; auto. Qed.

Definition off (sw r : R) : R := rnd (sw * rnd (1 - r)).
Lemma off_bounds : forall sw r, 0 <= sw -> rnd sw = sw -> 0 <= r <= 1 -> 0 <= off sw r <= sw.
Proof.
  intros sw r H E Hr. assert (Q : 0 <= rnd (1 - r) <= 1) by (split; [apply rnd_nonneg; lra|apply rnd_le; [lra|apply rnd_1]]).
  unfold off. split; [apply rnd_nonneg, Rmult_le_pos; lra|]. apply rnd_le; auto.
  rewrite <- (Rmult_1_r sw) at 2. apply Rmult_le_compat_l; lra.
Qed.
Lemma off_mono : forall sw a b, 0 <= sw -> a <= b -> off sw b <= off sw a.
Proof. intros sw a b H Hab. unfold off. apply (r_mono _ RR), Rmult_le_compat_l; auto. apply (r_mono _ RR). lra. Qed.

Lemma switch_rnd : forall ns f sf t, rnd (switch_time_r rnd g ns f sf t) = switch_time_r rnd g ns f sf t.
Proof.
  intros. unfold switch_time_r. destruct (_ && _); [|destruct (_ && _)]; apply (r_idem _ RR).
Qed.

(** One iteration. *)
Lemma cp_step_r_inv : forall nl nr sf k nx s s',
  cp_step_r rnd g dT (nominal_swing_r rnd g) nl nr sf k nx s = Ok s' ->
  let stepTime := rnd (st_time (t_step nx) - c_prev s) in
  let switchTime := switch_time_r rnd g (nominal_swing_r rnd g) (Nat.eqb k 2) sf stepTime in
  0 <= stepTime /\ advanced k nx (n_step stepTime) (n_step switchTime) s s'
  /\ c_prev s' = rnd (c_prev s + rnd (rnd (INR (n_step stepTime)) * dT)).
Proof.
  intros nl nr sf k nx s s' H stepTime switchTime. unfold cp_step_r in H. fold stepTime in H.
  destruct (Rltb stepTime 0) eqn:B; [discriminate|]. apply Rltb_false in B. fold switchTime in H.
  assert (Rt : rnd stepTime = stepTime) by apply (r_idem _ RR).
  pose proof (switch_bounds (Nat.eqb k 2) sf stepTime B Rt) as [S0 S1]. fold switchTime in S0, S1.
  assert (Rs : rnd switchTime = switchTime) by apply switch_rnd.
  assert (Hle : (n_step switchTime <= n_step stepTime)%nat) by (apply n_mono; lra).
  rewrite !n_ok in H by auto. cbn [rbind] in H. set (n := n_step stepTime) in *. set (sw := n_step switchTime) in *.
  rewrite sub_size_le in H by lia. cbn [rbind] in H.
  assert (Q : exists isL, t_left nx && Nat.eqb (t_idx nx) (c_li s) = isL /\
     negb (t_left nx) && Nat.eqb (t_idx nx) (c_ri s) = negb isL /\ t_left nx = isL /\
     t_idx nx = (if t_left nx then c_li s else c_ri s)).
  { destruct (t_left nx); simpl in H |- *.
    - destruct (Nat.eqb_spec (t_idx nx) (c_li s)); simpl in H; [|discriminate]. exists true. auto.
    - destruct (Nat.eqb_spec (t_idx nx) (c_ri s)); simpl in H; [|discriminate]. exists false. auto. }
  destruct Q as (isL & Q1 & Q2 & Q3 & Q4). rewrite Q1, Q2 in H.
  assert (HB : negb isL && negb (negb isL) = false) by (destruct isL; reflexivity). rewrite HB in H.
  apply rbind_ok in H. destruct H as (mp & Hmp & H). inversion H; subst s'; clear H.
  split; [exact B|]. split; [|reflexivity]. unfold advanced. cbn [c_lp c_rp c_shift c_cur c_merge c_li c_ri c_prev c_lastLeft c_ub].
  rewrite Q3 in *. replace (c_cur s + sw + (n - sw))%nat with (c_cur s + n)%nat by lia.
  repeat split; auto; try (destruct isL; reflexivity).
  exists mp. split; auto. split.
  - intros ->. simpl in Hmp. congruence.
  - intros Hk. destruct (Nat.eqb_spec k 2) as [E|_]; [contradiction|].
    destruct G as [_ _ _ [[M1 M2] M3] _ _].
    destruct (off_bounds switchTime (g_mrBegin g) S0 Rs) as [O1 O2]; [lra|].
    destruct (off_bounds switchTime (g_mrEnd g) S0 Rs) as [O3 O4]; [lra|].
    pose proof (off_mono switchTime _ _ S0 M2) as O5.
    fold (off switchTime (g_mrBegin g)) in Hmp. fold (off switchTime (g_mrEnd g)) in Hmp.
    rewrite !n_ok in Hmp by auto. cbn [rbind] in Hmp.
    pose proof (n_mono _ _ (conj O3 O5)) as L1. pose proof (n_mono _ _ (conj O1 O2)) as L2. fold sw in L2.
    rewrite !sub_size_le in Hmp by lia. cbn [rbind] in Hmp.
    inversion Hmp. do 2 eexists. split; [|split; [|reflexivity]]; lia.
Qed.

(** ... which is never undefined. *)
Lemma cp_step_r_defined : forall nl nr sf k nx s,
  cp_step_r rnd g dT (nominal_swing_r rnd g) nl nr sf k nx s <> UB.
Proof.
  intros nl nr sf k nx s. unfold cp_step_r. set (stepTime := rnd (_ - _)).
  destruct (Rltb stepTime 0) eqn:B; [discriminate|]. apply Rltb_false in B. set (switchTime := switch_time_r _ _ _ _ _ _).
  assert (Rt : rnd stepTime = stepTime) by apply (r_idem _ RR).
  pose proof (switch_bounds (Nat.eqb k 2) sf stepTime B Rt) as [S0 S1]. fold switchTime in S0, S1.
  assert (Rs : rnd switchTime = switchTime) by apply switch_rnd.
  assert (Hle : (n_step switchTime <= n_step stepTime)%nat) by (apply n_mono; lra).
  rewrite !n_ok by auto. cbn [rbind]. rewrite sub_size_le by lia. cbn [rbind].
  destruct (_ && negb _); [discriminate|]. destruct (Nat.eqb k 2); [discriminate|].
  destruct G as [_ _ _ [[M1 M2] M3] _ _].
  destruct (off_bounds switchTime (g_mrBegin g) S0 Rs) as [O1 O2]; [lra|].
  destruct (off_bounds switchTime (g_mrEnd g) S0 Rs) as [O3 O4]; [lra|].
  pose proof (off_mono switchTime _ _ S0 M2) as O5.
  fold (off switchTime (g_mrBegin g)). fold (off switchTime (g_mrEnd g)).
  rewrite !n_ok by auto. cbn [rbind].
  pose proof (n_mono _ _ (conj O3 O5)) as L1. pose proof (n_mono _ _ (conj O1 O2)) as L2.
  rewrite !sub_size_le by lia. discriminate.
Qed.

(** ... and succeeds for the next step of its foot. *)
Lemma cp_step_r_accept : forall nl nr sf k nx s, 0 <= rnd (st_time (t_step nx) - c_prev s) ->
  t_idx nx = (if t_left nx then c_li s else c_ri s) ->
  exists s', cp_step_r rnd g dT (nominal_swing_r rnd g) nl nr sf k nx s = Ok s'.
Proof.
  intros nl nr sf k nx s B Hi. unfold cp_step_r. set (stepTime := rnd (_ - _)) in *.
  destruct (Rltb stepTime 0) eqn:B'; [apply Rltb_true in B'; lra|]. set (switchTime := switch_time_r _ _ _ _ _ _).
  assert (Rt : rnd stepTime = stepTime) by apply (r_idem _ RR).
  pose proof (switch_bounds (Nat.eqb k 2) sf stepTime B Rt) as [S0 S1]. fold switchTime in S0, S1.
  assert (Rs : rnd switchTime = switchTime) by apply switch_rnd.
  assert (Hle : (n_step switchTime <= n_step stepTime)%nat) by (apply n_mono; lra).
  rewrite !n_ok by auto. cbn [rbind]. rewrite sub_size_le by lia. cbn [rbind].
  assert (X : negb (t_left nx && (t_idx nx =? c_li s)%nat) && negb (negb (t_left nx) && (t_idx nx =? c_ri s)%nat) = false).
  { rewrite Hi. destruct (t_left nx); simpl; rewrite Nat.eqb_refl; reflexivity. }
  rewrite X. clear X. destruct (Nat.eqb k 2); [cbn [rbind]; eauto|].
  destruct G as [_ _ _ [[M1 M2] M3] _ _].
  destruct (off_bounds switchTime (g_mrBegin g) S0 Rs) as [O1 O2]; [lra|].
  destruct (off_bounds switchTime (g_mrEnd g) S0 Rs) as [O3 O4]; [lra|].
  pose proof (off_mono switchTime _ _ S0 M2) as O5.
  fold (off switchTime (g_mrBegin g)). fold (off switchTime (g_mrEnd g)).
  rewrite !n_ok by auto. cbn [rbind].
  pose proof (n_mono _ _ (conj O3 O5)) as L1. pose proof (n_mono _ _ (conj O1 O2)) as L2.
  rewrite !sub_size_le by lia. cbn [rbind]. eauto.
Qed.

Lemma cp_loop_r_defined : forall nl nr sf tl k s, cp_loop_r rnd g dT (nominal_swing_r rnd g) nl nr sf k tl s <> UB.
Proof.
  intros nl nr sf tl. induction tl as [|nx tl IH]; intros k s; cbn [cp_loop_r]; [discriminate|].
  pose proof (cp_step_r_defined nl nr sf k nx s). destruct (cp_step_r _ _ _ _ _ _ _ _ _ _); cbn [rbind]; auto; discriminate.
Qed.

Lemma InvS_loop : forall nl nr sf tl k s s' done, k = (2 + length done)%nat -> InvS done s ->
  cp_loop_r rnd g dT (nominal_swing_r rnd g) nl nr sf k tl s = Ok s' -> InvS (done ++ tl) s'.
Proof.
  intros nl nr sf tl. induction tl as [|nx tl IH]; intros k s s' done Hk I H; cbn [cp_loop_r] in H.
  - inversion H; subst. rewrite app_nil_r. auto.
  - apply rbind_ok in H. destruct H as (s1 & H1 & H). destruct (cp_step_r_inv _ _ _ _ _ _ _ H1) as (_ & A & _).
    replace (done ++ nx :: tl) with ((done ++ [nx]) ++ tl) by (rewrite <- app_assoc; reflexivity).
    eapply IH; [|eapply InvS_step; eauto|exact H]. rewrite app_length. simpl. lia.
Qed.

Lemma create_r_ok : forall init nl nr fl fr ord ph, create_phases_r rnd g dT init nl nr fl fr ord = Ok ph ->
  (2 <= length ord)%nat /\ PhS (n_step (g_endSwitch g)) fl fr (planned ord) ph.
Proof.
  intros init nl nr fl fr [|a [|b [|c tl]]] ph H; try discriminate.
  - split; [simpl; lia|]. cbn [create_phases_r] in H. rewrite n_ok in H by (apply Rlt_le, (gr_end _ _ G)). cbn [rbind] in H.
    apply PhS_two. exact H.
  - split; [simpl; lia|]. cbn [create_phases_r planned List.tl] in H |- *. set (pl := c :: tl) in *.
    apply rbind_ok in H. destruct H as (tot & _ & H). apply rbind_ok in H. destruct H as (s & Hs & H).
    assert (I : InvS pl s). { change pl with ([] ++ pl). eapply InvS_loop; [|apply InvS_0|exact Hs]. reflexivity. }
    rewrite n_ok in H by (apply Rlt_le, (gr_end _ _ G)). cbn [rbind] in H.
    apply rbind_ok in H. destruct H as (ml & Hml & H). apply sub_size_ok in Hml. destruct Hml as [Hm1 Hml].
    assert (HL : match c_lastLeft s with Some b0 => b0 | None => true end = last_mover fl fr pl).
    { rewrite (i_last _ _ I). unfold last_mover. assert (rev pl <> []) by (unfold pl; simpl; destruct (rev tl); discriminate).
      destruct (rev pl); congruence. }
    rewrite HL in H. eapply (PhS_closed s); [|exact I|exact Hm1|exact Hml|exact H]. discriminate.
Qed.
End D.
End S.

Lemma generate_r_inv : forall g left right init dT srt out, good_r rnd g ->
  generate_phases_r rnd g left right init dT srt = Ok out ->
  exists l0 r0, hd_error (fp_steps left) = Some l0 /\ hd_error (fp_steps right) = Some r0
  /\ 0 < dT /\ fp_name left <> fp_name right /\ st_time l0 <= init /\ st_time r0 <= init
  /\ order_steps srt = Ok (go_ord out) /\ (2 <= length (go_ord out))%nat
  /\ PhS (n_step dT (g_endSwitch g)) (st_time l0) (st_time r0) (planned (go_ord out)) (go_ph out)
  /\ go_lContact out = map contact_of (ph_left (go_ph out))
  /\ go_rContact out = map contact_of (ph_right (go_ph out))
  /\ go_leftFixed out = map fixed_of (ph_left (go_ph out))
  /\ create_phases_r rnd g dT init (fp_number left) (fp_number right) (st_time l0) (st_time r0) (go_ord out) = Ok (go_ph out).
Proof.
  intros g left right init dT srt out G H. unfold generate_phases_r, fp_number in H |- *.
  destruct (fp_steps left) as [|l0 l] eqn:El; [discriminate|].
  destruct (fp_steps right) as [|r0 r] eqn:Er; [discriminate|]. cbn [length Nat.ltb Nat.leb] in H.
  destruct (String.eqb _ _) eqn:En; [discriminate|]. destruct (Rleb dT 0) eqn:Ed; [discriminate|]. apply Rleb_false in Ed.
  destruct (Rltb _ _) eqn:Ei; [discriminate|]. apply Rltb_false in Ei.
  apply rbind_ok in H. destruct H as (ord & Ho & H). apply rbind_ok in H. destruct H as (ph & Hp & H).
  inversion H; subst out; clear H. cbn [go_ord go_ph go_lContact go_rContact go_leftFixed].
  destruct (create_r_ok g G dT Ed _ _ _ _ _ _ _ Hp) as [L P].
  exists l0, r0. apply String.eqb_neq in En.
  pose proof (Rmax_l (st_time l0) (st_time r0)). pose proof (Rmax_r (st_time l0) (st_time r0)).
  repeat (split; [auto; try lra|]). exact Hp.
Qed.

Lemma end_samples_r : forall g dT, good_r rnd g -> 0 < dT -> dT <= 2 * g_endSwitch g -> (1 <= n_step dT (g_endSwitch g))%nat.
Proof.
  intros g dT G Hd He. unfold n_step. assert (1 / 2 <= rnd (g_endSwitch g / dT)).
  { apply rnd_ge; [|apply (r_half _ RR)]. apply (Rmult_le_reg_r dT); auto. field_simplify; lra. }
  destruct (nround_bounds (rnd (g_endSwitch g / dT))) as [_ B]; [lra|]. destruct (nround _); [simpl in B; lra|lia].
Qed.

(** No conversion or unsigned subtraction goes wrong. *)
Lemma create_r_defined : forall g dT init nl nr fl fr ord, good_r rnd g -> 0 < dT -> dT <= 2 * g_endSwitch g ->
  (2 <= length ord)%nat -> StronglySorted tle ord ->
  (exists t, In t ord /\ init <= st_time (t_step t) + g_endSwitch g) ->
  create_phases_r rnd g dT init nl nr fl fr ord <> UB.
Proof.
  intros g dT init nl nr fl fr [|a [|b [|c tl]]] G Hd He HL Hs Ht; cbn [length] in HL; try lia.
  - cbn [create_phases_r]. rewrite n_ok by (auto; apply Rlt_le, (gr_end _ _ G)). discriminate.
  - cbn [create_phases_r]. destruct Ht as (t & Hin & Ht).
    set (d := hd _ _). set (ord := a :: b :: c :: tl) in *.
    assert (L : st_time (t_step t) <= st_time (t_step (last ord d))).
    { exact (sorted_last ord d t Hs Hin). }
    match goal with |- context [size_ceil ?x] => destruct (size_ceil_nonneg x) as (q & ->) end.
    { assert (0 <= rnd (rnd (rnd (st_time (t_step (last ord d)) - init) + g_endSwitch g) / dT)); [|lra].
      apply rnd_nonneg, div_nonneg; auto. apply rnd_nonneg.
      assert (- g_endSwitch g <= rnd (st_time (t_step (last ord d)) - init)); [|lra].
      apply rnd_ge; [lra|]. rewrite (r_opp _ RR), (gr_rend _ _ G). reflexivity. }
    cbn [rbind]. match goal with |- context [cp_loop_r ?a1 ?a2 ?a3 ?a4 ?a5 ?a6 ?a7 ?a8 ?a9 ?a10] =>
      pose proof (cp_loop_r_defined g G dT Hd a5 a6 a7 a9 a8 a10) as HC; destruct (cp_loop_r a1 a2 a3 a4 a5 a6 a7 a8 a9 a10) end; cbn [rbind]; try discriminate; try contradiction.
    rewrite n_ok by (auto; apply Rlt_le, (gr_end _ _ G)). cbn [rbind].
    pose proof (end_samples_r g dT G Hd He). rewrite sub_size_le by lia. discriminate.
Qed.

Lemma generate_r_defined : forall g left right init dT srt, good_r rnd g ->
  sort_result (fp_steps left) (fp_steps right) srt -> dT <= 2 * g_endSwitch g ->
  (exists b i s, nth_error (foot_list (fp_steps left) (fp_steps right) b) i = Some s
                 /\ init <= st_time s + g_endSwitch g) ->
  generate_phases_r rnd g left right init dT srt <> UB.
Proof.
  intros g left right init dT srt G S He (b & i & s & Hs & Hi). unfold generate_phases_r, fp_number.
  destruct (fp_steps left) as [|l0 l] eqn:El; [discriminate|].
  destruct (fp_steps right) as [|r0 r] eqn:Er; [discriminate|]. cbn [length Nat.ltb Nat.leb].
  destruct (String.eqb _ _); [discriminate|]. destruct (Rleb dT 0) eqn:Ed; [discriminate|]. apply Rleb_false in Ed.
  destruct (Rltb _ _); [discriminate|].
  assert (Ls : (2 <= length srt)%nat).
  { destruct S as [P _]. rewrite (Permutation_length P), all_steps_length. simpl. lia. }
  pose proof (order_defined srt Ls) as HO.
  destruct (order_steps srt) as [ord| |] eqn:Eo; cbn [rbind]; try discriminate; try contradiction.
  match goal with |- context [create_phases_r ?a0 ?a1 ?a2 ?a3 ?a4 ?a5 ?a6 ?a7 ?a8] =>
    pose proof (create_r_defined a1 a2 a3 a4 a5 a6 a7 a8 G Ed He) as HC end.
  destruct (create_phases_r _ _ _ _ _ _ _ _ _); cbn [rbind]; try discriminate.
  intros _. apply HC; auto.
  - rewrite <- (Permutation_length (order_perm _ _ Eo)). auto.
  - eapply order_sorted; [apply S|exact Eo].
  - exists (MkT b i s). split; auto. apply (Permutation_in _ (order_perm _ _ Eo)). eapply sort_in; eauto.
Qed.
End R.
