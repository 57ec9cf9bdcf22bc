From Coq Require Import String Reals Lra Lia ZArith List Bool Sorting.Sorted Sorting.Permutation.
From Verif Require Import Prelude Rounding FootPrint GenPhases GenSpec GenProofs.
Import ListNotations.
Open Scope R_scope.

Lemma div_nonneg : forall a b, 0 <= a -> 0 < b -> 0 <= a / b.
Proof. intros. apply Rmult_le_pos; auto. apply Rlt_le, Rinv_0_lt_compat; auto. Qed.
Lemma div_mono : forall a b c, 0 < c -> a <= b -> a / c <= b / c.
Proof. intros. apply Rmult_le_compat_r; auto. apply Rlt_le, Rinv_0_lt_compat; auto. Qed.

Lemma nth_snoc : forall (l : list nat) a i d,
  nth i (l ++ [a]) d = if Nat.ltb i (length l) then nth i l d
                       else if Nat.eqb i (length l) then a else d.
Proof.
  intros l a i d. destruct (Nat.ltb_spec i (length l)).
  - apply app_nth1; auto.
  - rewrite app_nth2 by lia. destruct (Nat.eqb_spec i (length l)).
    + replace (i - length l)%nat with 0%nat by lia. reflexivity.
    + apply nth_overflow. simpl. lia.
Qed.

(** The foot that moved last (loads during the terminal switch). *)
Definition last_mover (fl fr : R) (pl : list tstep) : bool :=
  match rev pl with [] => Rgtb fl fr | t :: _ => t_left t end.

Record PhOk (g : gset) (dT init fl fr : R) (pl : list tstep) (ph : phases) : Prop := MkPhOk {
  p_len : length (ph_shift ph) = (2 * length pl + 2)%nat;
  p_hd : bnd ph 0 = 0%nat;
  p_mono : forall i j, (i <= j <= 2 * length pl + 1)%nat -> (bnd ph i <= bnd ph j)%nat;
  p_size : forall b, length (foot_phases ph b) = bnd ph (2 * length pl + 1);
  p_win : forall k t, nth_error pl k = Some t -> step_window ph k t;
  p_end : seg (foot_phases ph (last_mover fl fr pl)) (bnd ph (2 * length pl)) (bnd ph (2 * length pl + 1)) SwitchIn
          /\ seg (foot_phases ph (negb (last_mover fl fr pl))) (bnd ph (2 * length pl)) (bnd ph (2 * length pl + 1)) SwitchOut;
  p_endlen : (bnd ph (2 * length pl + 1) = bnd ph (2 * length pl) + nround (g_endSwitch g / dT))%nat;
  p_time : forall k t, nth_error pl k = Some t ->
            Rabs (init + INR (bnd ph (2 * k + 2)) * dT - st_time (t_step t)) <= dT / 2;
  p_idx : exists nl nr, foot_indices true pl = seq 1 nl /\ foot_indices false pl = seq 1 nr;
  p_m : (1 <= nround (g_endSwitch g / dT))%nat ->
        (forall m, In m (ph_merge ph) -> (m < bnd ph (2 * length pl + 1))%nat)
        /\ StronglySorted le (ph_merge ph)
        /\ (forall m, In m (ph_merge ph) -> exists k, (k <= length pl)%nat /\ (bnd ph (2 * k) <= m <= bnd ph (2 * k + 1))%nat)
        /\ ((forall k, (k < length pl)%nat -> (bnd ph (2 * k + 1) < bnd ph (2 * k + 2))%nat) ->
            StronglySorted lt (ph_merge ph))
}.

Lemma create_two : forall g dT init nl nr fl fr a b ph, good_settings g -> 0 < dT ->
  create_phases g dT init nl nr fl fr [a; b] = Ok ph -> PhOk g dT init fl fr [] ph.
Proof.
  intros g dT init nl nr fl fr a b ph G Hd H. cbn [create_phases] in H.
  rewrite size_round_ok in H by (apply div_nonneg; auto; apply Rlt_le, (good_end g G)). simpl in H.
  set (es := nround (g_endSwitch g / dT)) in *. inversion H; subst ph; clear H.
  assert (W : forall b, length (foot_phases {| ph_left := if Rgtb fl fr then repeat SwitchIn es else repeat SwitchOut es;
     ph_right := if Rgtb fl fr then repeat SwitchOut es else repeat SwitchIn es;
     ph_shift := [0%nat; es]; ph_merge := 0%nat :: seq 1 (es - 1); ph_ub := false |} b) = es).
  { intros [|]; simpl; destruct (Rgtb fl fr); apply repeat_length. }
  constructor; cbn -[Rgtb nround]; auto.
  - intros i j Hij. assert (j = 0 \/ j = 1)%nat as [->| ->] by lia; [assert (i = 0)%nat by lia; subst; simpl; lia|].
    assert (i = 0 \/ i = 1)%nat as [->| ->] by lia; simpl; lia.
  - intros k t H. destruct k; discriminate.
  - unfold last_mover; cbn -[Rgtb]. destruct (Rgtb fl fr); cbn;
      split; intros i Hi; unfold bnd in Hi; simpl in Hi; apply nth_error_repeat; lia.
  - intros k t H. destruct k; discriminate.
  - exists 0%nat, 0%nat. auto.
  - fold es. intros He. unfold bnd; simpl. repeat split.
    + intros m [<-|Hm]; [lia|]. apply in_seq in Hm. lia.
    + constructor; [apply ssorted_lt_le, seq_ssorted|]. apply Forall_forall. intros; lia.
    + intros m Hm. exists 0%nat. simpl. split; [lia|]. destruct Hm as [<-|Hm]; [lia|]. apply in_seq in Hm. lia.
    + intros _. constructor; [apply seq_ssorted|]. apply Forall_forall. intros x Hx. apply in_seq in Hx. lia.
Qed.

Lemma create_many : forall g dT init nl nr fl fr a b c tl ph, good_settings g -> 0 < dT ->
  create_phases g dT init nl nr fl fr (a :: b :: c :: tl) = Ok ph -> PhOk g dT init fl fr (c :: tl) ph.
Proof.
  intros g dT init nl nr fl fr a b c tl0 ph G Hd H. cbn [create_phases] in H.
  set (pl := c :: tl0) in *.
  apply rbind_ok in H. destruct H as (tot & _ & H).
  apply rbind_ok in H. destruct H as (s & Hs & H).
  assert (I : Inv dT init pl s).
  { change pl with ([] ++ pl). eapply Inv_loop; [exact G|exact Hd| |apply Inv_0|exact Hs]. reflexivity. }
  rewrite size_round_ok in H by (apply div_nonneg; auto; apply Rlt_le, (good_end g G)).
  simpl in H. set (es := nround (g_endSwitch g / dT)) in *.
  apply rbind_ok in H. destruct H as (ml & Hml & H). apply sub_size_ok in Hml. destruct Hml as [Hm1 Hml].
  destruct I.
  assert (Hne : rev pl <> []). { unfold pl. simpl. destruct (rev tl0); discriminate. }
  assert (HL : match c_lastLeft s with Some b0 => b0 | None => true end = last_mover fl fr pl).
  { rewrite i_last. unfold last_mover. destruct (rev pl); congruence. }
  rewrite HL in H. set (lm := last_mover fl fr pl) in *.
  set (n := length pl) in *.
  inversion H; subst ph; clear H.
  set (ph := {| ph_left := _ |}).
  assert (SH : forall i, (i <= 2 * n)%nat -> bnd ph i = sh s i).
  { intros i Hi. unfold bnd, sh, ph; cbn [ph_shift]. rewrite nth_snoc, i_len.
    destruct (Nat.ltb_spec i (2 * n + 1)); auto; lia. }
  assert (SE : bnd ph (2 * n + 1) = (c_cur s + es)%nat).
  { unfold bnd, ph; cbn [ph_shift]. rewrite nth_snoc, i_len. rewrite Nat.ltb_irrefl, Nat.eqb_refl. reflexivity. }
  assert (C : forall i, (i <= 2 * n)%nat -> (sh s i <= c_cur s)%nat).
  { intros q Hq. rewrite <- i_cur. apply i_mono. lia. }
  assert (Lc : forall b, length (cph s b) = c_cur s) by (intros [|]; simpl; auto).
  assert (FP : forall b, foot_phases ph b = cph s b ++ repeat (if Bool.eqb b lm then SwitchIn else SwitchOut) es).
  { intros [|]; simpl; destruct lm; reflexivity. }
  assert (LF : forall b, length (foot_phases ph b) = (c_cur s + es)%nat).
  { intros x. rewrite FP, app_length, repeat_length, Lc. reflexivity. }
  assert (MG : ph_merge ph = c_merge s ++ [ml]) by reflexivity.
  constructor; fold n; fold lm.
  - unfold ph; cbn [ph_shift]. rewrite app_length, i_len. simpl. lia.
  - rewrite SH by lia. auto.
  - intros i j Hij. destruct (Nat.eq_dec j (2 * n + 1)) as [->|].
    + rewrite SE. destruct (Nat.eq_dec i (2 * n + 1)) as [->|]; [rewrite SE; lia|]. rewrite SH by lia. specialize (C i). lia.
    + rewrite !SH by lia. apply i_mono. fold n. lia.
  - intros x. rewrite LF, SE. auto.
  - intros k t Hk. assert (Hkn : (k < n)%nat) by (apply nth_error_Some; congruence).
    destruct (i_win _ _ Hk) as (W1 & W2 & W3 & W4). unfold step_window. rewrite !SH by lia. rewrite !FP.
    repeat split; apply seg_old; auto; rewrite Lc; apply C; lia.
  - rewrite SE, (SH (2 * n)%nat) by lia. rewrite i_cur, !FP. rewrite Bool.eqb_reflx. replace (Bool.eqb (negb lm) lm) with false by (destruct lm; reflexivity).
    split.
    + rewrite <- (Lc lm). apply seg_rep1.
    + rewrite <- (Lc (negb lm)). exact (seg_rep1 (cph s (negb lm)) es SwitchOut).
  - rewrite SE, (SH (2 * n)%nat), i_cur by lia. reflexivity.
  - intros k t Hk. assert (Hkn : (k < n)%nat) by (apply nth_error_Some; congruence).
    rewrite SH by lia. auto.
  - exists (c_li s - 1)%nat, (c_ri s - 1)%nat. tauto.
  - fold es. intros He. rewrite MG, SE. repeat split.
    + intros m Hm. apply in_app_or in Hm. destruct Hm as [Hm|[<-|[]]]; [|lia].
      rewrite Forall_forall in i_mle. specialize (i_mle _ Hm). lia.
    + apply ssorted_app; auto; [repeat constructor|]. intros x y Hx [<-|[]].
      rewrite Forall_forall in i_mle. specialize (i_mle _ Hx). lia.
    + intros m Hm. apply in_app_or in Hm. destruct Hm as [Hm|[<-|[]]].
      * destruct (i_mdbl _ Hm) as [->|(k & Hk & Hb)].
        -- exists 0%nat. change (2 * 0)%nat with 0%nat. rewrite !SH by (unfold n, pl; simpl; lia). rewrite i_hd. split; lia.
        -- exists k. fold n in Hk. rewrite !SH by lia. split; lia.
      * exists n. split; auto. rewrite SE, (SH (2 * n)%nat), i_cur by lia. lia.
    + intros Hstr. destruct i_mstr as [Q1 Q2].
      * intros k Hk. fold n in Hk. specialize (Hstr k Hk). rewrite !SH in Hstr by lia. auto.
      * apply ssorted_app; auto; [repeat constructor|]. intros x y Hx [<-|[]].
        specialize (Q2 ltac:(discriminate)). rewrite Forall_forall in Q2. specialize (Q2 _ Hx). lia.
Qed.

Lemma create_ok : forall g dT init nl nr fl fr ord ph, good_settings g -> 0 < dT ->
  create_phases g dT init nl nr fl fr ord = Ok ph -> (2 <= length ord)%nat /\ PhOk g dT init fl fr (planned ord) ph.
Proof.
  intros g dT init nl nr fl fr [|a [|b [|c tl]]] ph G Hd H; try discriminate.
  - split; [simpl; lia|]. eapply create_two; eauto.
  - split; [simpl; lia|]. eapply create_many; eauto.
Qed.

(** Every instant belongs to one window. *)
Lemma find_interval : forall (f : nat -> nat) n i, f 0%nat = 0%nat -> (i < f n)%nat ->
  exists k, (k < n)%nat /\ (f k <= i < f (S k))%nat.
Proof.
  intros f n i H0. induction n; intros H; [lia|].
  destruct (Nat.lt_ge_cases i (f n)).
  - destruct (IHn H1) as (k & Hk & Hb). exists k. split; auto; lia.
  - exists n. split; auto; lia.
Qed.

Lemma parity : forall k, exists j, k = (2 * j)%nat \/ k = (2 * j + 1)%nat.
Proof. intros k. exists (Nat.div2 k). pose proof (Nat.div2_odd k). destruct (Nat.odd k); simpl in *; lia. Qed.

(** Each interval between boundaries has one phase per foot, and the pair is complementary. *)
Lemma interval_phase : forall g dT init fl fr pl ph k, PhOk g dT init fl fr pl ph ->
  (k < 2 * length pl + 1)%nat -> exists p q, complementary p q
    /\ seg (ph_left ph) (bnd ph k) (bnd ph (S k)) p /\ seg (ph_right ph) (bnd ph k) (bnd ph (S k)) q.
Proof.
  intros g dT init fl fr pl ph k [] Hk. unfold complementary.
  destruct (parity k) as (j & [-> | ->]).
  - destruct (nth_error pl j) as [t|] eqn:E.
    + destruct (p_win0 _ _ E) as (W1 & W2 & _). replace (S (2 * j)) with (2 * j + 1)%nat by lia.
      destruct (t_left t); simpl in *; [exists SwitchOut, SwitchIn|exists SwitchIn, SwitchOut]; auto 6.
    + apply nth_error_None in E. assert (j = length pl) by lia. subst j. replace (S (2 * length pl)) with (2 * length pl + 1)%nat by lia.
      destruct p_end0 as [W1 W2]. destruct (last_mover fl fr pl); simpl in *; [exists SwitchIn, SwitchOut|exists SwitchOut, SwitchIn]; auto 6.
  - destruct (nth_error pl j) as [t|] eqn:E.
    + destruct (p_win0 _ _ E) as (_ & _ & W1 & W2). replace (S (2 * j + 1)) with (2 * j + 2)%nat by lia.
      destruct (t_left t); simpl in *; [exists Swing, Stance|exists Stance, Swing]; auto 6.
    + apply nth_error_None in E. lia.
Qed.

(** Ordering. *)
Lemma tag_from_spec : forall lf l i0 b i s, In (MkT b i s) (tag_from lf i0 l) <->
  b = lf /\ (i0 <= i)%nat /\ nth_error l (i - i0) = Some s.
Proof.
  intros lf l. induction l as [|x l IH]; intros i0 b i s; simpl.
  - split; [tauto|]. intros (_ & _ & H). destruct (i - i0)%nat; discriminate.
  - rewrite IH. split.
    + intros [H|(-> & H1 & H2)].
      * inversion H; subst. split; auto. split; auto. rewrite Nat.sub_diag. reflexivity.
      * split; auto. split; [lia|]. replace (i - i0)%nat with (S (i - S i0)) by lia. exact H2.
    + intros (-> & H1 & H2). destruct (Nat.eq_dec i i0) as [->|].
      * left. rewrite Nat.sub_diag in H2. simpl in H2. congruence.
      * right. split; auto. split; [lia|]. replace (i - i0)%nat with (S (i - S i0)) in H2 by lia. exact H2.
Qed.

Lemma tag_from_keys : forall lf l i0, map (fun t => (t_left t, t_idx t)) (tag_from lf i0 l) = map (fun i => (lf, i)) (seq i0 (length l)).
Proof. intros lf l. induction l; intros; simpl; auto. rewrite IHl. reflexivity. Qed.

Lemma nodup_pairs : forall (b : bool) l, NoDup l -> NoDup (map (fun i : nat => (b, i)) l).
Proof.
  intros b l H. induction H; simpl; constructor; auto. intros C. apply in_map_iff in C. destruct C as (y & E & Hy). congruence.
Qed.

Lemma all_steps_enumerates : forall l r, enumerates l r (all_steps l r).
Proof.
  intros l r. split.
  - unfold all_steps. rewrite map_app, !tag_from_keys.
    assert (A := nodup_pairs true _ (seq_NoDup (length l) 0)). assert (B := nodup_pairs false _ (seq_NoDup (length r) 0)).
    revert A. generalize (seq 0 (length l)) as u. induction u; simpl; auto. intros A. inversion A; subst. constructor; auto.
    intros C. apply in_app_or in C. destruct C as [C|C]; auto. apply in_map_iff in C. destruct C as (y & E & _). congruence.
  - intros b i s. unfold all_steps. rewrite in_app_iff, !tag_from_spec, Nat.sub_0_r. destruct b; simpl; intuition (try discriminate; try lia).
Qed.

Lemma enumerates_perm : forall l r a b, Permutation a b -> enumerates l r a -> enumerates l r b.
Proof.
  intros l r a b P [H1 H2]. split.
  - eapply Permutation_NoDup; [|exact H1]. apply Permutation_map; auto.
  - intros x i s. rewrite <- H2. split; apply Permutation_in; auto. apply Permutation_sym; auto.
Qed.

Lemma order_perm : forall srt ord, order_steps srt = Ok ord -> Permutation srt ord.
Proof.
  intros [|a [|b tl]] ord H; simpl in H; try discriminate.
  - inversion H; auto.
  - destruct (adjacent_equal tl); [discriminate|]. destruct tl as [|c tl]; [inversion H; auto|].
    destruct (_ && _); inversion H; subst; auto. apply perm_swap.
Qed.

Lemma order_sorted : forall srt ord, StronglySorted tle srt -> order_steps srt = Ok ord -> StronglySorted tle ord.
Proof.
  intros [|a [|b tl]] ord S H; simpl in H; try discriminate.
  - inversion H; auto.
  - destruct (adjacent_equal tl); [discriminate|]. destruct tl as [|c tl]; [inversion H; subst; auto|].
    destruct (Reqb (st_time (t_step a)) (st_time (t_step b))) eqn:E; simpl in H; [|inversion H; subst; auto].
    apply Reqb_true in E. destruct (String.eqb _ _); inversion H; subst; auto.
    inversion S as [|? ? Sb Fa]; subst. inversion Sb as [|? ? Sc Fb]; subst. inversion Fa; subst.
    constructor; [constructor; auto|]. constructor; auto. unfold tle. lra.
Qed.

Lemma order_alternates : forall srt a b c tl, order_steps srt = Ok (a :: b :: c :: tl) ->
  st_time (t_step a) = st_time (t_step b) -> st_name (t_step a) <> st_name (t_step b) ->
  st_name (t_step b) <> st_name (t_step c).
Proof.
  intros [|a0 [|b0 tl0]] a b c tl H Et En; simpl in H; try discriminate.
  destruct (adjacent_equal tl0); [discriminate|]. destruct tl0 as [|c0 tl0]; [inversion H|].
  destruct (Reqb (st_time (t_step a0)) (st_time (t_step b0))) eqn:E; simpl in H.
  - destruct (String.eqb (st_name (t_step b0)) (st_name (t_step c0))) eqn:N; inversion H; subst.
    + apply String.eqb_eq in N. congruence.
    + apply String.eqb_neq in N. auto.
  - inversion H; subst. apply Reqb_false in E. contradiction.
Qed.

Lemma adjacent_distinct : forall l, adjacent_equal l = false -> StronglySorted tle l ->
  StronglySorted (fun a b => st_time (t_step a) < st_time (t_step b)) l.
Proof.
  induction l as [|a l IH]; intros H S; [constructor|].
  inversion S as [|? ? S' F]; subst. destruct l as [|b l]; [repeat constructor|].
  simpl in H. apply orb_false_iff in H. destruct H as [H1 H2]. apply Reqb_false in H1.
  specialize (IH H2 S'). constructor; auto. inversion F as [|? ? F1 F2]; subst. unfold tle in F1. constructor; [lra|].
  inversion IH as [|? ? _ F3]; subst. eapply Forall_impl; [|exact F3]. simpl. intros; lra.
Qed.

Lemma order_strict : forall srt ord, StronglySorted tle srt -> order_steps srt = Ok ord ->
  StronglySorted (fun a b => st_time (t_step a) < st_time (t_step b)) (planned ord).
Proof.
  intros [|a [|b tl]] ord S H; simpl in H; try discriminate.
  - inversion H; constructor.
  - destruct (adjacent_equal tl) eqn:A; [discriminate|].
    inversion S as [|? ? Sb Fa]; subst. inversion Sb as [|? ? Sc Fb]; subst.
    assert (planned ord = tl). { destruct tl as [|c tl]; [inversion H; auto|]. destruct (_ && _); inversion H; auto. }
    rewrite H0. apply adjacent_distinct; auto.
Qed.
