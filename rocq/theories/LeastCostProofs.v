(** The least cost in doubles. *)
From Coq Require Import Reals ZArith Lra Lia List Bool.
From Flocq Require Import Core IEEE754.BinarySingleNaN.
From Verif Require Import Prelude FootPrint Doubles DoublesSpec DoublesProofs TimedPlan TimedPlanSpec TimedPlanProofs2 TimedPlanProofs3 ZmpTimesProofs3 StepDoubles StepDoublesSpec StepDoublesProofs3 LeastCostSpec.
Import ListNotations.

Section Choice.
Variable P : Type.
Variable c : tcfg f64.
Variable o : geo f64 P.
Notation tst := (tst f64 P).
Notation examined := (examined c o).

Lemma minus1 : a_q ieee (-1) 1 = fm1.
Proof. apply same_f64. vm_compute. reflexivity. Qed.
(** One iteration. *)
Definition quiet (s s' : tst) : Prop := stays P s s' /\ t_opt s' = t_opt s /\ t_minCost s' = t_minCost s.
Definition noted (s s' : tst) (cost : f64) : Prop := stays P s s' /\ examined s cost /\
  (if Bltb (t_opt s) fzero || Bleb cost (t_minCost s) then t_opt s' = t_t s /\ t_minCost s' = cost else t_opt s' = t_opt s /\ t_minCost s' = t_minCost s).
Definition placed (s s' : tst) (x : P * f64) : Prop := takes s s' x /\
  ((Bltb fzero (t_opt s) = true /\ x = (fst x, t_opt s) /\ o_pose o (t_sw s) (t_left s) (t_right s) (t_opt s) = Some (fst x) /\ t_opt s' = fm1)
   \/ (Bltb fzero (t_opt s) = false /\ x = (fst x, t_t s) /\ o_par o (t_sw s) (t_left s) (t_right s) = Some (fst x) /\ t_opt s' = t_opt s)).
Lemma body_kinds : forall s s', last_opt (t_stance s) = Some (t_prev s) -> t_body ieee c o s = Ok s' ->
  (quiet s s' /\ forall cost, ~ examined s cost) \/ (exists cost, noted s s' cost) \/ ((exists x, placed s s' x) /\ forall cost, ~ examined s cost).
Proof.
  intros s s' G1 H. unfold t_body in H.
  assert (Q0 : quiet s s) by (repeat split). assert (Q1 : forall a, quiet s (MkTS (t_left s) (t_right s) (t_sw s) (t_t s) (t_opt s) (t_minCost s) a (t_off s) (t_prev s))) by (intros a; repeat split).
  destruct (a_le ieee (c_min c) (a_sub ieee (t_t s) (snd (t_prev s))) && a_lt ieee (a_add ieee (c_init c) (t_off s)) (t_t s)) eqn:C.
  2: { left. inversion H; subst. split; [exact Q0|]. intros cost [E1 E2 _ _ _ _ _]. apply andb_false_iff in C. unfold le64, lt64 in *. destruct C as [C|C]; cbn in C; congruence. }
  apply andb_true_iff in C. destruct C as (C1 & C2).
  destruct (o_tiny o (t_sw s) (t_left s) (t_right s) (t_t s)) eqn:TI; cbn [negb] in H.
  { left. inversion H; subst. split; [apply Q1|]. intros cost [_ _ E _ _ _ _]. congruence. }
  destruct (a_lt ieee (c_max c) (a_sub ieee (a_sub ieee (t_t s) (snd (t_prev s))) (t_pause s)) || a_eq ieee (t_t s) (c_end c)) eqn:D.
  - assert (NE : forall cost, ~ examined s cost). { intros cost [_ _ _ E1 E2 _ _]. apply orb_true_iff in D. destruct D as [D|D]; cbn in D; congruence. }
    destruct (a_lt ieee (c0 ieee) (t_opt s)) eqn:OP; rewrite c0_zero in OP; cbn [a_lt ieee] in OP.
    + right. right. split; auto. unfold t_best in H. destruct (o_pose o (t_sw s) (t_left s) (t_right s) (t_opt s)) as [p|] eqn:PE; [|discriminate].
      destruct (t_step ieee (t_sw s) (t_left s) (t_right s) p (t_opt s)) as [[l r]|] eqn:SE; [|discriminate]. cbn [rbind] in H.
      destruct (step_lists P _ _ _ _ _ _ _ SE) as (El & Er). unfold t_refresh in H. destruct (last_opt _) in H; [|discriminate]. inversion H; subst s'. clear H.
      exists (p, t_opt s). split; [split; auto|]. left. repeat split; auto. exact minus1.
    + unfold t_parallel in H. destruct (o_still o (t_sw s) (t_left s) (t_right s) (t_prev s)) as [tiny|] eqn:ST; [|discriminate]. destruct tiny; cbn [negb] in H.
      * left. split; auto. cbn [rbind] in H. unfold t_refresh in H. change (t_stance _) with (t_stance s) in H at 1. rewrite G1 in H. inversion H; subst. apply Q1.
      * right. right. split; auto. destruct (o_par o (t_sw s) (t_left s) (t_right s)) as [p|] eqn:PA; [|discriminate].
        destruct (t_step ieee (t_sw s) (t_left s) (t_right s) p (t_t s)) as [[l r]|] eqn:SE; [|discriminate]. cbn [rbind] in H.
        destruct (step_lists P _ _ _ _ _ _ _ SE) as (El & Er). unfold t_refresh in H. destruct (last_opt _) in H; [|discriminate]. inversion H; subst s'. clear H.
        exists (p, t_t s). split; [split; auto|]. right. repeat split; auto.
  - apply orb_false_iff in D. destruct D as (D1 & D2). unfold t_try in H. change (a_sub ieee (a_sub ieee (t_t s) (snd (t_prev s))) (t_pause s)) with (fsub (fsub (t_t s) (snd (t_prev s))) (t_pause s)) in H.
    set (dt := fsub (fsub (t_t s) (snd (t_prev s))) (t_pause s)) in *.
    destruct (o_cand o (t_sw s) (t_left s) (t_right s) (t_prev s) (t_t s) dt) as [cd|] eqn:CE; [|discriminate].
    destruct (a_lt ieee (c0 ieee) dt) eqn:DT; rewrite c0_zero in DT.
    2: { left. inversion H; subst. split; [exact Q0|]. intros cost [_ _ _ _ _ E _]. unfold lt64 in E. fold dt in E. cbn in DT. congruence. }
    destruct cd as [cost|].
    2: { left. inversion H; subst. split; [exact Q0|]. intros cost [_ _ _ _ _ _ E]. fold dt in E. congruence. }
    right. left. exists cost. assert (EX : examined s cost) by (constructor; auto). unfold noted. rewrite c0_zero in H. change (a_lt ieee (t_opt s) fzero) with (Bltb (t_opt s) fzero) in H. change (a_le ieee cost (t_minCost s)) with (Bleb cost (t_minCost s)) in H.
    destruct (Bltb (t_opt s) fzero || Bleb cost (t_minCost s)); inversion H; subst s'; repeat split; auto.
Qed.

Definition sound (s : tst) : Prop := last_opt (t_stance s) = Some (t_prev s).
Lemma grow : forall X (l : list X) x, l ++ [x] = l -> False.
Proof. intros X l x H. apply (f_equal (@length X)) in H. rewrite app_length in H. simpl in H. lia. Qed.
Lemma takes_steps : forall (s s' : tst) x, takes s s' x -> ~ no_step s s'.
Proof. intros s s' x (A & B) (C & D). destruct (t_sw s); [rewrite A in C|rewrite B in D]; (exact (grow _ _ _ C) || exact (grow _ _ _ D)). Qed.
Lemma iter_kinds : forall s s', good P c o s -> t_iter ieee c o s = Ok s' ->
  (quiet s s' /\ forall cost, ~ examined s cost) \/ (exists cost, noted s s' cost) \/ ((exists x, placed s s' x) /\ forall cost, ~ examined s cost).
Proof.
  intros s s' G H. unfold t_iter in H. destruct (t_body ieee c o s) as [s1| |] eqn:B; try discriminate. cbn [rbind] in H. inversion H; subst s'.
  exact (body_kinds s s1 (gd_prev _ _ _ _ G) B).
Qed.

Variable st : nat -> tst.
Variable n : nat.
Hypothesis start : good P c o (st O) /\ t_opt (st O) = fm1.
Hypothesis run : traced c o st (S n).
Hypothesis timed : forall i cost, (i < S n)%nat -> examined (st i) cost -> lt64 fzero (t_t (st i)).

Lemma all_good : forall i, (i <= S n)%nat -> good P c o (st i).
Proof. induction i as [|i IH]; intros L; [apply start|]. destruct (run i ltac:(lia)) as (_ & E). apply (iter_good P c o _ _ (IH ltac:(lia)) E). Qed.
Lemma opt_negative : Bltb fm1 fzero = true. Proof. vm_compute. reflexivity. Qed.
Lemma not_both : forall x : f64, Bltb x fzero = true -> Bltb fzero x = false.
Proof.
  intros x H. destruct (lt64_number _ _ H) as (A & B). apply lt64_inv in H. rewrite blt_key by auto. rcases; auto; lra.
Qed.
(** What the search remembers since state [m]. *)
Definition remembers (m k : nat) : Prop :=
  (Bltb (t_opt (st k)) fzero = true /\ forall j cost, (m <= j < k)%nat -> ~ examined (st j) cost)
  \/ (exists i, (m <= i < k)%nat /\ examined (st i) (t_minCost (st k)) /\ t_opt (st k) = t_t (st i) /\
      forall j cost, (m <= j < k)%nat -> examined (st j) cost -> le64 (t_minCost (st k)) cost /\ ((i < j)%nat -> lt64 (t_minCost (st k)) cost)).
Lemma one_cost : forall s a b, examined s a -> examined s b -> a = b.
Proof. intros s a b [_ _ _ _ _ _ A] [_ _ _ _ _ _ B]. congruence. Qed.
Lemma le_refl64 : forall x, number x -> le64 x x.
Proof. intros. apply le64_key; auto. lra. Qed.
Lemma remember_step : forall m k, (m <= k <= n)%nat -> (forall j cost, (m <= j <= k)%nat -> examined (st j) cost -> number cost) ->
  no_step (st k) (st (S k)) -> remembers m k -> remembers m (S k).
Proof.
  intros m k L NU NS R0. destruct (run k ltac:(lia)) as (_ & E). destruct (iter_kinds _ _ (all_good k ltac:(lia)) E) as [((_ & Q1 & Q2) & NE)|[(cost & (_ & EX & Q))|((x & (T & _)) & _)]].
  - unfold remembers. rewrite Q1, Q2. destruct R0 as [(A & B)|(i & A & B & C & D)].
    + left. split; auto. intros j cost Hj. destruct (Nat.eq_dec j k) as [->|]; [apply NE|apply B; lia].
    + right. exists i. split; [lia|]. repeat (split; [assumption|]). intros j cost Hj X. destruct (Nat.eq_dec j k) as [->|]; [destruct (NE _ X)|apply D; auto; lia].
  - assert (NC : number cost) by (apply (NU k); auto; lia). destruct R0 as [(A & B)|(i & A & B & C & D)].
    + rewrite A in Q. cbn [orb] in Q. destruct Q as (Q1 & Q2). right. exists k. rewrite Q1, Q2. split; [lia|]. split; auto. split; auto. intros j cost' Hj X.
      destruct (Nat.eq_dec j k) as [->|]; [|destruct (B j cost' ltac:(lia) X)]. rewrite (one_cost _ _ _ X EX). split; [apply le_refl64; auto|lia].
    + assert (TP : lt64 fzero (t_opt (st k))) by (rewrite C; apply (timed i (t_minCost (st k))); auto; lia).
      assert (TN : Bltb (t_opt (st k)) fzero = false). { destruct (lt64_number _ _ TP). apply lt64_inv in TP. rewrite blt_key by auto. rcases; auto; lra. }
      rewrite TN in Q. cbn [orb] in Q. destruct (Bleb cost (t_minCost (st k))) eqn:LE; destruct Q as (Q1 & Q2); right.
      * exists k. rewrite Q1, Q2. split; [lia|]. split; auto. split; auto. intros j cost' Hj X. destruct (Nat.eq_dec j k) as [->|].
        -- rewrite (one_cost _ _ _ X EX). split; [apply le_refl64; auto|lia].
        -- split; [|lia]. destruct (D j cost' ltac:(lia) X) as (D1 & _). eapply le64_trans; eauto.
      * exists i. rewrite Q1, Q2. split; [lia|]. split; auto. split; auto. intros j cost' Hj X. destruct (Nat.eq_dec j k) as [->|]; [|apply D; auto; lia].
        rewrite (one_cost _ _ _ X EX). assert (NM : number (t_minCost (st k))) by (apply (NU i); auto; lia).
        assert (Z : lt64 (t_minCost (st k)) cost) by (rewrite ble_key in LE by auto; rcasesh LE; [discriminate|]; apply lt64_key; auto).
        split; auto. apply lt64_inv in Z. apply le64_key; auto. lra.
  - exfalso. exact (takes_steps _ _ _ T NS).
Qed.
(** After a step the search remembers nothing. *)
Lemma forgets : forall k, (k <= n)%nat -> (Bltb (t_opt (st k)) fzero = true \/ Bltb fzero (t_opt (st k)) = true) /\ (~ no_step (st k) (st (S k)) -> Bltb (t_opt (st (S k))) fzero = true).
Proof.
  assert (K : forall k, (k <= S n)%nat -> Bltb (t_opt (st k)) fzero = true \/ Bltb fzero (t_opt (st k)) = true).
  { induction k as [|k IH]; intros L; [left; rewrite (proj2 start); apply opt_negative|]. specialize (IH ltac:(lia)). destruct (run k ltac:(lia)) as (_ & E).
    destruct (iter_kinds _ _ (all_good k ltac:(lia)) E) as [((_ & Q1 & Q2) & NE)|[(cost & (_ & EX & Q))|((x & (_ & [(A & _ & _ & B)|(A & _ & _ & B)])) & _)]].
    - rewrite Q1. exact IH.
    - destruct (Bltb (t_opt (st k)) fzero || Bleb cost (t_minCost (st k))); destruct Q as (Q1 & _); rewrite Q1; auto. right. apply (timed k cost); auto; lia.
    - left. rewrite B. apply opt_negative.
    - rewrite B. exact IH. }
  intros k L. split; [apply K; lia|]. intros NS. destruct (run k ltac:(lia)) as (_ & E).
  destruct (iter_kinds _ _ (all_good k ltac:(lia)) E) as [(((A & B & _) & _) & _)|[(cost & ((A & B & _) & _))|((x & (_ & [(A & _ & _ & B)|(A & _ & _ & B)])) & _)]].
  - destruct NS. split; auto.
  - destruct NS. split; auto.
  - rewrite B. apply opt_negative.
  - rewrite B. destruct (K k ltac:(lia)) as [Z|Z]; congruence.
Qed.
Theorem chosen_least : forall m, between st m n -> (forall j cost, (m <= j < n)%nat -> examined (st j) cost -> number cost) ->
  exists x, takes (st n) (st (S n)) x /\ least c o st m n x.
Proof.
  intros m (L & S0 & KE & ST) NU.
  assert (R0 : forall k, (m <= k <= n)%nat -> remembers m k).
  { induction k as [|k IH]; intros H.
    - left. assert (m = O) by lia. subst m. split; [rewrite (proj2 start); apply opt_negative|]. intros; lia.
    - destruct (Nat.eq_dec m (S k)) as [->|].
      + left. split; [|intros; lia]. destruct S0 as [S0|(m' & S0 & S1)]; [lia|]. injection S0 as <-. apply (proj2 (forgets k ltac:(lia))); auto.
      + apply remember_step; [lia| |apply KE; lia|apply IH; lia]. intros j cost Hj. apply NU; lia. }
  specialize (R0 n ltac:(lia)). destruct (run n ltac:(lia)) as (_ & E).
  destruct (iter_kinds _ _ (all_good n ltac:(lia)) E) as [(((A & B & _) & _) & _)|[(cost & ((A & B & _) & _))|((x & (T & K)) & NE)]]; [destruct ST; split; auto|destruct ST; split; auto|].
  exists x. split; auto. destruct K as [(A & B & C & _)|(A & B & C & _)].
  - left. destruct R0 as [(Z & _)|(i & R1 & R2 & R3 & R4)]; [rewrite (not_both _ Z) in A; discriminate|]. exists i, (t_minCost (st n)). assert (SX : snd x = t_opt (st n)) by (rewrite B; reflexivity).
    split; auto. split; auto. rewrite SX. split; auto.
  - right. assert (SX : snd x = t_t (st n)) by (rewrite B; reflexivity). destruct R0 as [(Z & R1)|(i & R1 & R2 & R3 & R4)]; [auto|].
    assert (TP : lt64 fzero (t_opt (st n))) by (rewrite R3; apply (timed i (t_minCost (st n))); auto; lia). unfold lt64 in TP. congruence.
Qed.
End Choice.
