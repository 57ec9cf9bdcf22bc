(** Structure of the rounded phase computation; no property of the arithmetic beyond [rounding] is used. *)
From Coq Require Import String Reals Lra Lia ZArith List Bool Sorting.Sorted Sorting.Permutation.
From Verif Require Import Prelude Rounding FootPrint GenPhases GenSpec GenProofs GenProofs2 GenProofs3 RoundedGen RoundedGenSpec.
Import ListNotations.
Open Scope R_scope.

(** [Inv] without the two clauses about time. *)
Record InvS (done : list tstep) (s : cpst) : Prop := MkInvS {
  i_len : length (c_shift s) = (2 * length done + 1)%nat;
  i_hd : sh s 0 = 0%nat;
  i_cur : sh s (2 * length done) = c_cur s;
  i_mono : forall i j, (i <= j <= 2 * length done)%nat -> (sh s i <= sh s j)%nat;
  i_ll : length (c_lp s) = c_cur s;
  i_lr : length (c_rp s) = c_cur s;
  i_win : forall k t, nth_error done k = Some t -> window s k t;
  i_li : foot_indices true done = seq 1 (c_li s - 1) /\ (1 <= c_li s)%nat;
  i_ri : foot_indices false done = seq 1 (c_ri s - 1) /\ (1 <= c_ri s)%nat;
  i_last : c_lastLeft s = match rev done with [] => None | t :: _ => Some (t_left t) end;
  i_mle : Forall (fun m => (m <= c_cur s)%nat) (c_merge s);
  i_msort : StronglySorted le (c_merge s);
  i_mdbl : forall m, In m (c_merge s) -> (m = 0%nat \/ exists k, (1 <= k < length done)%nat
            /\ (sh s (2 * k) <= m <= sh s (2 * k + 1))%nat);
  i_mstr : (forall k, (k < length done)%nat -> (sh s (2 * k + 1) < sh s (2 * k + 2))%nat) ->
           StronglySorted lt (c_merge s) /\ (done <> [] -> Forall (fun m => (m < c_cur s)%nat) (c_merge s))
}.

(** One iteration appended [sw] samples of double support and [n - sw] of single support. *)
Definition advanced (k : nat) (nx : tstep) (n sw : nat) (s s' : cpst) : Prop :=
  (sw <= n)%nat
  /\ t_idx nx = (if t_left nx then c_li s else c_ri s)
  /\ cph s' (t_left nx) = cph s (t_left nx) ++ repeat SwitchOut sw ++ repeat Swing (n - sw)
  /\ cph s' (negb (t_left nx)) = cph s (negb (t_left nx)) ++ repeat SwitchIn sw ++ repeat Stance (n - sw)
  /\ c_shift s' = c_shift s ++ [(c_cur s + sw)%nat; (c_cur s + n)%nat]
  /\ c_cur s' = (c_cur s + n)%nat
  /\ c_lastLeft s' = Some (t_left nx)
  /\ c_li s' = (if t_left nx then S (c_li s) else c_li s)
  /\ c_ri s' = (if t_left nx then c_ri s else S (c_ri s))
  /\ exists mp, c_merge s' = c_merge s ++ mp
     /\ (k = 2%nat -> mp = [])
     /\ (k <> 2%nat -> exists a b, (c_cur s <= a <= b)%nat /\ (b <= c_cur s + sw)%nat /\ mp = range_incl a b).

Lemma InvS_step : forall k nx n sw s s' done, k = (2 + length done)%nat -> InvS done s -> advanced k nx n sw s s' ->
  InvS (done ++ [nx]) s'.
Proof.
  intros k nx n sw s s' done Hk I (Hle & Hidx & Psw & Pst & Hsh & Hcur & Hlast & Hli & Hri & mp & Hmp & Hmp2 & Hmpk).
  destruct I.
  assert (Lc : forall b, length (cph s b) = c_cur s) by (intros [|]; simpl; auto).
  assert (Lc' : forall b, length (cph s' b) = (c_cur s + n)%nat).
  { intros b. destruct (Bool.bool_dec b (t_left nx)) as [->|Hb].
    - rewrite Psw, !app_length, !repeat_length, Lc. lia.
    - assert (b = negb (t_left nx)) by (destruct b, (t_left nx); simpl in *; congruence). subst b.
      rewrite Pst, !app_length, !repeat_length, Lc. lia. }
  set (d := length done) in *.
  assert (SHO : forall i, (i <= 2 * d)%nat -> sh s' i = sh s i).
  { intros i Hi. unfold sh. rewrite Hsh, nth_snoc2, i_len0. destruct (Nat.ltb_spec i (2 * d + 1)); auto; lia. }
  assert (SH1 : sh s' (2 * d + 1) = (c_cur s + sw)%nat).
  { unfold sh. rewrite Hsh, nth_snoc2, i_len0. rewrite Nat.ltb_irrefl, Nat.eqb_refl. reflexivity. }
  assert (SH2 : sh s' (2 * d + 2) = (c_cur s + n)%nat).
  { unfold sh. rewrite Hsh, nth_snoc2, i_len0.
    destruct (Nat.ltb_spec (2 * d + 2) (2 * d + 1)); [lia|]. destruct (Nat.eqb_spec (2 * d + 2) (2 * d + 1)); [lia|].
    destruct (Nat.eqb_spec (2 * d + 2) (S (2 * d + 1))); [reflexivity|lia]. }
  assert (Old : forall b, exists l', cph s' b = cph s b ++ l').
  { intros b. destruct (Bool.bool_dec b (t_left nx)) as [->|Hb]; [eexists; exact Psw|].
    assert (b = negb (t_left nx)) by (destruct b, (t_left nx); simpl in *; congruence). subst b. eexists; exact Pst. }
  assert (Lapp : length (done ++ [nx]) = S d) by (rewrite app_length; simpl; subst d; lia).
  assert (Nth : forall j t, nth_error (done ++ [nx]) j = Some t -> ((j < d)%nat /\ nth_error done j = Some t) \/ (j = d /\ t = nx)).
  { intros j t Hj. destruct (Nat.lt_ge_cases j d).
    - left. rewrite nth_error_app1 in Hj by auto. auto.
    - right. rewrite nth_error_app2 in Hj by auto. fold d in Hj.
      destruct (j - d)%nat eqn:E; simpl in Hj; [|destruct n0; discriminate]. inversion Hj. split; auto; lia. }
  constructor.
  - rewrite Hsh, app_length, i_len0, Lapp. simpl. lia.
  - rewrite SHO by lia. auto.
  - rewrite Lapp. replace (2 * S d)%nat with (2 * d + 2)%nat by lia. rewrite SH2, Hcur. reflexivity.
  - rewrite Lapp. intros i j Hij.
    assert (C : forall i, (i <= 2 * d)%nat -> (sh s i <= c_cur s)%nat).
    { intros q Hq. rewrite <- i_cur0. apply i_mono0. lia. }
    assert (V : forall i, (i <= 2 * S d)%nat -> (i <= 2 * d)%nat \/ i = (2 * d + 1)%nat \/ i = (2 * d + 2)%nat) by (intros; lia).
    destruct (V i) as [Hi|[Hi|Hi]]; [lia| | |]; destruct (V j) as [Hj|[Hj|Hj]]; try lia;
      try rewrite Hi; try rewrite Hj; rewrite ?SH1, ?SH2, ?(SHO i Hi), ?(SHO j Hj); try lia.
    + apply i_mono0. lia.
    + specialize (C i Hi). lia.
    + specialize (C i Hi). lia.
  - rewrite Hcur. apply (Lc' true).
  - rewrite Hcur. apply (Lc' false).
  - intros j t Hj. destruct (Nth _ _ Hj) as [[Hlt Ho]|[-> ->]].
    + destruct (i_win0 _ _ Ho) as (W1 & W2 & W3 & W4). unfold window. rewrite !SHO by lia.
      assert (C : forall i, (i <= 2 * d)%nat -> (sh s i <= c_cur s)%nat).
      { intros q Hq. rewrite <- i_cur0. apply i_mono0. lia. }
      destruct (Old (t_left t)) as (x & Hx). destruct (Old (negb (t_left t))) as (y & Hy). rewrite Hx, Hy.
      repeat split; apply seg_old; auto; rewrite Lc; apply C; lia.
    + unfold window. rewrite SH1, SH2, (SHO (2 * d)%nat), i_cur0 by lia. rewrite Psw, Pst.
      replace (c_cur s + n)%nat with (c_cur s + sw + (n - sw))%nat by lia.
      repeat split.
      * rewrite <- (Lc (t_left nx)). apply seg_rep.
      * rewrite <- (Lc (negb (t_left nx))). apply seg_rep.
      * rewrite <- (Lc (t_left nx)). apply seg_rep2.
      * rewrite <- (Lc (negb (t_left nx))). apply seg_rep2.
  - destruct i_li0 as [A B]. unfold foot_indices in *. rewrite filter_app, map_app, A. simpl.
    rewrite Hli. destruct (t_left nx); simpl.
    + split; [|lia]. rewrite Hidx. replace (c_li s - 0)%nat with (S (c_li s - 1)) by lia.
      rewrite seq_S. f_equal. f_equal. lia.
    + rewrite app_nil_r. auto.
  - destruct i_ri0 as [A B]. unfold foot_indices in *. rewrite filter_app, map_app, A. simpl.
    rewrite Hri. destruct (t_left nx); simpl.
    + rewrite app_nil_r. auto.
    + split; [|lia]. rewrite Hidx. replace (c_ri s - 0)%nat with (S (c_ri s - 1)) by lia.
      rewrite seq_S. f_equal. f_equal. lia.
  - rewrite Hlast, rev_app_distr. reflexivity.
  - rewrite Hmp, Hcur. apply Forall_app. split.
    + eapply Forall_impl; [|exact i_mle0]. simpl; intros; lia.
    + destruct (Nat.eq_dec k 2) as [E|E].
      * rewrite (Hmp2 E). constructor.
      * destruct (Hmpk E) as (a & b & P1 & P2 & ->). apply Forall_forall. intros x Hx. apply in_range_incl in Hx. lia.
  - rewrite Hmp. destruct (Nat.eq_dec k 2) as [E|E].
    + rewrite (Hmp2 E), app_nil_r. auto.
    + destruct (Hmpk E) as (a & b & P1 & P2 & ->). apply ssorted_app; auto.
      * apply ssorted_lt_le, seq_ssorted.
      * intros x y Hx Hy. rewrite Forall_forall in i_mle0. specialize (i_mle0 _ Hx). apply in_range_incl in Hy. lia.
  - intros m Hm. rewrite Hmp in Hm. apply in_app_or in Hm. rewrite Lapp. destruct Hm as [Hm|Hm].
    + destruct (i_mdbl0 _ Hm) as [->|(j & Hj & Hb)]; [left; auto|right]. exists j. rewrite !SHO by lia. split; auto; lia.
    + destruct (Nat.eq_dec k 2) as [E|E].
      * rewrite (Hmp2 E) in Hm. destruct Hm.
      * destruct (Hmpk E) as (a & b & P1 & P2 & ->). apply in_range_incl in Hm. right. exists d.
        rewrite SH1, SHO, i_cur0 by lia. split; lia.
  - rewrite Lapp. intros Hstr.
    assert (Hs1 : forall k0, (k0 < d)%nat -> (sh s (2 * k0 + 1) < sh s (2 * k0 + 2))%nat).
    { intros q Hq. specialize (Hstr q ltac:(lia)). rewrite !SHO in Hstr by lia. auto. }
    specialize (Hstr d ltac:(lia)). rewrite SH1, SH2 in Hstr.
    destruct (i_mstr0 Hs1) as [Q1 Q2].
    rewrite Hmp, Hcur. destruct (Nat.eq_dec k 2) as [E|E].
    + rewrite (Hmp2 E), app_nil_r. split; auto. intros _. eapply Forall_impl; [|exact i_mle0]. simpl; intros; lia.
    + destruct (Hmpk E) as (a & b & P1 & P2 & ->).
      assert (Hd0 : done <> []) by (intros ->; simpl in *; lia). specialize (Q2 Hd0).
      split.
      * apply ssorted_app; auto. apply seq_ssorted.
        intros x y Hx Hy. rewrite Forall_forall in Q2. specialize (Q2 _ Hx). apply in_range_incl in Hy. lia.
      * intros _. apply Forall_app. split. eapply Forall_impl; [|exact Q2]. simpl; intros; lia.
        apply Forall_forall. intros x Hx. apply in_range_incl in Hx. lia.
Qed.

Lemma InvS_0 : forall init, InvS [] (MkCP [] [] [0%nat] 0 [0%nat] 1 1 init None false).
Proof.
  intros init. constructor; simpl; auto.
  - intros i j H. assert (i = 0%nat /\ j = 0%nat) by lia. destruct H0; subst. auto.
  - intros k t H. destruct k; discriminate.
  - repeat constructor.
  - intros m [H|[]]; auto.
  - intros _. split; [repeat constructor|congruence].
Qed.

(** [PhOk] without the clause about time; [es]: samples of the terminal switch. *)
Record PhS (es : nat) (fl fr : R) (pl : list tstep) (ph : phases) : Prop := MkPhS {
  p_len : length (ph_shift ph) = (2 * length pl + 2)%nat;
  p_hd : bnd ph 0 = 0%nat;
  p_mono : forall i j, (i <= j <= 2 * length pl + 1)%nat -> (bnd ph i <= bnd ph j)%nat;
  p_size : forall b, length (foot_phases ph b) = bnd ph (2 * length pl + 1);
  p_win : forall k t, nth_error pl k = Some t -> step_window ph k t;
  p_end : seg (foot_phases ph (last_mover fl fr pl)) (bnd ph (2 * length pl)) (bnd ph (2 * length pl + 1)) SwitchIn
          /\ seg (foot_phases ph (negb (last_mover fl fr pl))) (bnd ph (2 * length pl)) (bnd ph (2 * length pl + 1)) SwitchOut;
  p_endlen : (bnd ph (2 * length pl + 1) = bnd ph (2 * length pl) + es)%nat;
  p_idx : exists nl nr, foot_indices true pl = seq 1 nl /\ foot_indices false pl = seq 1 nr;
  p_m : (1 <= es)%nat ->
        (forall m, In m (ph_merge ph) -> (m < bnd ph (2 * length pl + 1))%nat)
        /\ StronglySorted le (ph_merge ph)
        /\ (forall m, In m (ph_merge ph) -> exists k, (k <= length pl)%nat /\ (bnd ph (2 * k) <= m <= bnd ph (2 * k + 1))%nat)
        /\ ((forall k, (k < length pl)%nat -> (bnd ph (2 * k + 1) < bnd ph (2 * k + 2))%nat) ->
            StronglySorted lt (ph_merge ph))
}.

(** The final phases built from the loop's result. *)
Definition closed (s : cpst) (es ml : nat) (lm : bool) : phases :=
  MkPh (c_lp s ++ repeat (if lm then SwitchIn else SwitchOut) es)
       (c_rp s ++ repeat (if lm then SwitchOut else SwitchIn) es)
       (c_shift s ++ [(c_cur s + es)%nat]) (c_merge s ++ [ml]) (c_ub s).

Lemma PhS_closed : forall s es ml fl fr pl ph, pl <> [] -> InvS pl s -> (1 <= c_cur s + es)%nat -> ml = (c_cur s + es - 1)%nat ->
  Ok (closed s es ml (last_mover fl fr pl)) = Ok ph -> PhS es fl fr pl ph.
Proof.
  intros s es ml fl fr pl ph Hpl I Hm1 Hml H. destruct I. unfold closed in H.
  set (lm := last_mover fl fr pl) in *.
  set (n := length pl) in *.
  inversion H; subst ph; clear H.
  set (ph := {| ph_left := _ |}).
  assert (SH : forall i, (i <= 2 * n)%nat -> bnd ph i = sh s i).
  { intros i Hi. unfold bnd, sh, ph; cbn [ph_shift]. rewrite nth_snoc, i_len0.
    destruct (Nat.ltb_spec i (2 * n + 1)); auto; lia. }
  assert (SE : bnd ph (2 * n + 1) = (c_cur s + es)%nat).
  { unfold bnd, ph; cbn [ph_shift]. rewrite nth_snoc, i_len0. rewrite Nat.ltb_irrefl, Nat.eqb_refl. reflexivity. }
  assert (C : forall i, (i <= 2 * n)%nat -> (sh s i <= c_cur s)%nat).
  { intros q Hq. rewrite <- i_cur0. apply i_mono0. lia. }
  assert (Lc : forall b, length (cph s b) = c_cur s) by (intros [|]; simpl; auto).
  assert (FP : forall b, foot_phases ph b = cph s b ++ repeat (if Bool.eqb b lm then SwitchIn else SwitchOut) es).
  { intros [|]; simpl; destruct lm; reflexivity. }
  assert (LF : forall b, length (foot_phases ph b) = (c_cur s + es)%nat).
  { intros x. rewrite FP, app_length, repeat_length, Lc. reflexivity. }
  assert (MG : ph_merge ph = c_merge s ++ [ml]) by reflexivity.
  constructor; fold n; fold lm.
  - unfold ph; cbn [ph_shift]. rewrite app_length, i_len0. simpl. lia.
  - rewrite SH by lia. auto.
  - intros i j Hij. destruct (Nat.eq_dec j (2 * n + 1)) as [->|].
    + rewrite SE. destruct (Nat.eq_dec i (2 * n + 1)) as [->|]; [rewrite SE; lia|]. rewrite SH by lia. specialize (C i). lia.
    + rewrite !SH by lia. apply i_mono0. fold n. lia.
  - intros x. rewrite LF, SE. auto.
  - intros k t Hk. assert (Hkn : (k < n)%nat) by (apply nth_error_Some; congruence).
    destruct (i_win0 _ _ Hk) as (W1 & W2 & W3 & W4). unfold step_window. rewrite !SH by lia. rewrite !FP.
    repeat split; apply seg_old; auto; rewrite Lc; apply C; lia.
  - rewrite SE, (SH (2 * n)%nat) by lia. rewrite i_cur0, !FP. rewrite Bool.eqb_reflx. replace (Bool.eqb (negb lm) lm) with false by (destruct lm; reflexivity).
    split.
    + rewrite <- (Lc lm). apply seg_rep1.
    + rewrite <- (Lc (negb lm)). exact (seg_rep1 (cph s (negb lm)) es SwitchOut).
  - rewrite SE, (SH (2 * n)%nat), i_cur0 by lia. reflexivity.
  - exists (c_li s - 1)%nat, (c_ri s - 1)%nat. tauto.
  - intros He. rewrite MG, SE. repeat split.
    + intros m Hm. apply in_app_or in Hm. destruct Hm as [Hm|[<-|[]]]; [|lia].
      rewrite Forall_forall in i_mle0. specialize (i_mle0 _ Hm). lia.
    + apply ssorted_app; auto; [repeat constructor|]. intros x y Hx [<-|[]].
      rewrite Forall_forall in i_mle0. specialize (i_mle0 _ Hx). lia.
    + intros m Hm. apply in_app_or in Hm. destruct Hm as [Hm|[<-|[]]].
      * destruct (i_mdbl0 _ Hm) as [->|(k & Hk & Hb)].
        -- exists 0%nat. change (2 * 0)%nat with 0%nat. assert (n <> 0)%nat by (unfold n; destruct pl; simpl; congruence). rewrite !SH by lia. rewrite i_hd0. split; lia.
        -- exists k. fold n in Hk. rewrite !SH by lia. split; lia.
      * exists n. split; auto. rewrite SE, (SH (2 * n)%nat), i_cur0 by lia. lia.
    + intros Hstr. destruct i_mstr0 as [Q1 Q2].
      * intros k Hk. fold n in Hk. specialize (Hstr k Hk). rewrite !SH in Hstr by lia. auto.
      * apply ssorted_app; auto; [repeat constructor|]. intros x y Hx [<-|[]].
        specialize (Q2 Hpl). rewrite Forall_forall in Q2. specialize (Q2 _ Hx). lia.
Qed.


Lemma PhS_two : forall es fl fr ph,
  Ok (MkPh (if Rgtb fl fr then repeat SwitchIn es else repeat SwitchOut es) (if Rgtb fl fr then repeat SwitchOut es else repeat SwitchIn es)
               [0%nat; es] (0%nat :: seq 1 (es - 1)) false) = Ok ph -> PhS es fl fr [] ph.
Proof.
  intros es fl fr ph H.
  inversion H; subst ph; clear H.
  assert (W : forall b, length (foot_phases {| ph_left := if Rgtb fl fr then repeat SwitchIn es else repeat SwitchOut es;
     ph_right := if Rgtb fl fr then repeat SwitchOut es else repeat SwitchIn es;
     ph_shift := [0%nat; es]; ph_merge := 0%nat :: seq 1 (es - 1); ph_ub := false |} b) = es).
  { intros [|]; simpl; destruct (Rgtb fl fr); apply repeat_length. }
  constructor; cbn -[Rgtb nround Nat.leb]; auto.
  - intros i j Hij. assert (j = 0 \/ j = 1)%nat as [->| ->] by lia; [assert (i = 0)%nat by lia; subst; simpl; lia|].
    assert (i = 0 \/ i = 1)%nat as [->| ->] by lia; simpl; lia.
  - intros k t H. destruct k; discriminate.
  - unfold last_mover; cbn -[Rgtb]. destruct (Rgtb fl fr); cbn;
      split; intros i Hi; unfold bnd in Hi; simpl in Hi; apply nth_error_repeat; lia.
  - exists 0%nat, 0%nat. auto.
  - intros He. unfold bnd; simpl. repeat split.
    + intros m [<-|Hm]; [lia|]. apply in_seq in Hm. lia.
    + constructor; [apply ssorted_lt_le, seq_ssorted|]. apply Forall_forall. intros; lia.
    + intros m Hm. exists 0%nat. simpl. split; [lia|]. destruct Hm as [<-|Hm]; [lia|]. apply in_seq in Hm. lia.
    + intros _. constructor; [apply seq_ssorted|]. apply Forall_forall. intros x Hx. apply in_seq in Hx. lia.
Qed.

