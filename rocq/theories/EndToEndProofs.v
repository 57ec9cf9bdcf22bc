(** Planned steps form a walk for the generator. *)
From Coq Require Import String Reals Lra Lia ZArith List Bool Sorted.
From Verif Require Import Prelude FootPrint FootPrintSpec FootPrintProofs UnicycleFoot Ellipse Optimization FootSpec FootProofs PlannerSearch PlannerSpec Planner
  PlannerProofs PlannerProofs2 PlannerProofs3 PlannerProofs6 GenPhases GenSpec Generator EndToEndSpec.
Import ListNotations.
Open Scope R_scope.

Lemma sorted_by_nth : forall (P : step -> step -> Prop) l, (forall i j x y, (i < j)%nat -> nth_error l i = Some x -> nth_error l j = Some y -> P x y) -> StronglySorted P l.
Proof.
  induction l as [|a l IH]; intros H; constructor.
  - apply IH. intros i j x y L E1 E2. apply (H (S i) (S j) x y); [lia|exact E1|exact E2].
  - apply List.Forall_forall. intros x Hx. apply In_nth_error in Hx. destruct Hx as [n Hn]. apply (H 0%nat (S n) a x); [lia|reflexivity|exact Hn].
Qed.

(** Where a dealt step comes from. *)
Lemma deal_nth : forall all sw (b : bool) i, nth_error (if b then fst (deal sw all) else snd (deal sw all)) i = nth_error all (2 * i + (if Bool.eqb b sw then 0 else 1)).
Proof.
  induction all as [|x all IH]; intros sw b i.
  - cbn [deal fst snd]. destruct b; rewrite !(proj2 (nth_error_None _ _)); auto; cbn; lia.
  - cbn [deal]. pose proof (IH (negb sw)) as I. destruct (deal (negb sw) all) as [p q] eqn:E. cbn [fst snd] in I.
    destruct sw, b; cbn [fst snd Bool.eqb negb] in *.
    + destruct i as [|i]; [reflexivity|]. replace (2 * S i + 0)%nat with (S (2 * i + 1)) by lia. cbn [nth_error]. exact (I true i).
    + replace (2 * i + 1)%nat with (S (2 * i + 0)) by lia. cbn [nth_error]. exact (I false i).
    + replace (2 * i + 1)%nat with (S (2 * i + 0)) by lia. cbn [nth_error]. exact (I true i).
    + destruct i as [|i]; [reflexivity|]. replace (2 * S i + 0)%nat with (S (2 * i + 1)) by lia. cbn [nth_error]. exact (I false i).
Qed.

Definition paced (init gap : R) (sw : bool) (a b : step) : Prop := st_time a + gap <= st_time b /\ init < st_time b.
Lemma paced_nth : forall init gap all sw prev, 0 <= gap -> chain (paced init gap) sw prev all ->
  forall k y, nth_error all k = Some y -> st_time prev + gap <= st_time y /\ init < st_time y
  /\ (forall j x, (j < k)%nat -> nth_error all j = Some x -> st_time x + gap <= st_time y).
Proof.
  induction all as [|z all IH]; intros sw prev Hg H k y Hk; [destruct k; discriminate|].
  destruct H as [[H1 H2] H]. destruct k as [|k].
  - injection Hk as <-. repeat split; auto. intros; lia.
  - destruct (IH _ _ Hg H k y Hk) as (A & B & C). repeat split; auto; [lra|]. intros j x L E. destruct j as [|j].
    + injection E as <-. exact A.
    + apply (C j x); [lia|exact E].
Qed.

Lemma chain_walk : forall init lead gap all sw a b, 0 < gap -> st_time a <= init -> st_time b <= init ->
  chain (paced init gap) sw (if sw then b else a) all -> (forall x, nth_error all 0 = Some x -> init + lead <= st_time x) ->
  walk ([a] ++ fst (deal sw all)) ([b] ++ snd (deal sw all)) init lead gap.
Proof.
  intros init lead gap all sw a b Hg Ha Hb H Hl.
  assert (G0 : 0 <= gap) by lra. pose proof (paced_nth _ _ _ _ _ G0 H) as N.
  assert (PN : forall c i s, planned_step ([a] ++ fst (deal sw all)) ([b] ++ snd (deal sw all)) c i s ->
     exists j, i = S j /\ nth_error all (2 * j + (if Bool.eqb c sw then 0 else 1)) = Some s).
  { intros c i s [L E]. destruct i as [|j]; [lia|]. exists j. split; [reflexivity|]. rewrite <- deal_nth. destruct c; exact E. }
  assert (Srt : forall c z, st_time z <= init -> strictly_timed (z :: if c : bool then fst (deal sw all) else snd (deal sw all))).
  { intros c z Hz. apply sorted_by_nth. intros i j x y L E1 E2. destruct j as [|j]; [lia|]. cbn [nth_error] in E2. rewrite deal_nth in E2.
    destruct (N _ _ E2) as (_ & B & C). destruct i as [|i]; [injection E1 as <-; lra|]. cbn [nth_error] in E1. rewrite deal_nth in E1.
    pose proof (C (2 * i + (if Bool.eqb c sw then 0 else 1))%nat x ltac:(destruct (Bool.eqb c sw); lia) E1). lra. }
  constructor.
  - exact (Srt true a Ha).
  - exact (Srt false b Hb).
  - discriminate.
  - discriminate.
  - intros c s E. destruct c; injection E as <-; auto.
  - intros c i s P. destruct (PN _ _ _ P) as (j & -> & E). destruct (N _ _ E) as (_ & B & C). split; [exact B|].
    destruct (2 * j + (if Bool.eqb c sw then 0 else 1))%nat as [|k] eqn:Ek; [apply Hl; exact E|].
    destruct all as [|x all]; [discriminate|]. pose proof (Hl x eq_refl). pose proof (C 0%nat x ltac:(lia) eq_refl). lra.
  - intros c i s c' i' s' P P' Ne. destruct (PN _ _ _ P) as (j & -> & E). destruct (PN _ _ _ P') as (j' & -> & E').
    set (k := (2 * j + (if Bool.eqb c sw then 0 else 1))%nat) in *. set (k' := (2 * j' + (if Bool.eqb c' sw then 0 else 1))%nat) in *.
    assert (k <> k').
    { intros Q. apply Ne. unfold k, k' in Q. destruct c, c', sw; cbn [Bool.eqb] in Q; try lia; f_equal; lia. }
    destruct (Nat.lt_ge_cases k k') as [L|L].
    + destruct (N _ _ E') as (_ & _ & C). pose proof (C _ _ L E). rewrite Rabs_left1 by lra. lra.
    + destruct (N _ _ E) as (_ & _ & C). assert (L' : (k' < k)%nat) by lia. pose proof (C _ _ L' E'). rewrite Rabs_right by lra. lra.
Qed.

(** Which foot moves first, and whether it waits. *)
Lemma init_first : forall c e init tend lfp rfp i sol, init_planner c e init tend lfp rfp = Some (i, sol) ->
  (fp_steps lfp = [] -> fp_steps rfp = [] -> i_first i = true)
  /\ (forall a b, fp_steps lfp = [a] -> fp_steps rfp = [b] -> (st_time a = st_time b -> i_first i = true)
      /\ (st_time a <> st_time b -> i_first i = false /\ i_swingLeft i = Rltb (st_time a) (st_time b))).
Proof.
  intros c e init tend lfp rfp i sol H. unfold init_planner in H.
  destruct (init_state c e init (pl_foot c true lfp) (pl_foot c false rfp)) as [i'|] eqn:Ei; [|discriminate].
  destruct (Rleb tend init); [discriminate|]. destruct (v_integ e (i_state i')); [|discriminate]. injection H as -> _.
  unfold init_state in Ei.
  destruct (feet_state c e init (pl_foot c true lfp) (pl_foot c false rfp)) as [[i0 tf]|] eqn:Ef; [|discriminate].
  match type of Ei with (if ?b then _ else _) = _ => destruct b end; [discriminate|]. injection Ei as <-. cbn [i_first i_swingLeft].
  unfold feet_state in Ef. rewrite !fsteps_last in Ef.
  change (fsteps (pl_foot c true lfp)) with (fp_steps lfp) in Ef. change (fsteps (pl_foot c false rfp)) with (fp_steps rfp) in Ef.
  split.
  - intros E1 E2. rewrite E1, E2 in Ef. cbn [last_opt] in Ef.
    match type of Ef with match ?x with _ => _ end = _ => destruct x end; [|discriminate]. injection Ef as <- <-. reflexivity.
  - intros a b E1 E2. rewrite E1, E2 in Ef. cbn [last_opt] in Ef. split.
    + intros E. rewrite (proj2 (Reqb_true _ _) E) in Ef. match type of Ef with match ?x with _ => _ end = _ => destruct x end; [|discriminate]. injection Ef as <- <-. reflexivity.
    + intros E. rewrite (proj2 (Reqb_false _ _) E) in Ef. destruct (Rltb (st_time a) (st_time b)).
      * match type of Ef with match ?x with _ => _ end = _ => destruct x end; [|discriminate]. injection Ef as <- <-. cbn [i_first i_swingLeft andb]. split; [reflexivity|]. destruct (pl_ctrl c); reflexivity.
      * match type of Ef with match ?x with _ => _ end = _ => destruct x end; [|discriminate]. injection Ef as <- <-. cbn [i_first i_swingLeft andb]. split; [reflexivity|]. destruct (pl_ctrl c); reflexivity.
Qed.

Lemma plan_walk : forall c e fuel lfp rfp init tend l' r' sw' sl' lead, good_cfg c -> 0 < pl_minT c ->
  nonneg_times (fp_steps lfp) -> nonneg_times (fp_steps rfp) -> fresh (fp_steps lfp) (fp_steps rfp) ->
  guaranteed_lead c init (fp_steps lfp) (fp_steps rfp) lead -> 0 < pl_dT c ->
  compute_new_steps c e fuel lfp rfp init tend = PDone l' r' sw' sl' ->
  fp_name (ft_fp l') = fp_name lfp /\ fp_name (ft_fp r') = fp_name rfp
  /\ walk (fp_steps (ft_fp l')) (fp_steps (ft_fp r')) init lead (pl_minT c)
  /\ 0 <= init < tend /\ nonneg_times (fp_steps (ft_fp l')) /\ nonneg_times (fp_steps (ft_fp r')).
Proof.
  intros c e fuel lfp rfp init tend l' r' sw' sl' lead [G1 G2 G3 G4] Hm Nl Nr Fr Ld Hd H.
  unfold compute_new_steps in H.
  destruct (Rgtb _ _); [discriminate|]. destruct (Rgtb _ _); [discriminate|]. destruct (Rgeb _ _); [discriminate|]. destruct (negb _); [discriminate|].
  destruct (init_planner c e init tend lfp rfp) as [[i sol]|] eqn:Ei; [|discriminate].
  destruct (ft_getLast (stance_of (i_swingLeft i) (i_left i) (i_right i))) as [prev0|] eqn:Ep.
  2:{ unfold search_steps in H. change (if i_swingLeft i then i_right i else i_left i) with (stance_of (i_swingLeft i) (i_left i) (i_right i)) in H. rewrite Ep in H. discriminate. }
  destruct (init_facts _ _ _ _ _ _ _ _ _ Nl Nr Ei Ep) as (F1 & F2 & F3 & F4 & F5 & F6 & F7 & F8 & F9).
  pose proof (init_first _ _ _ _ _ _ _ _ Ei) as [I1 I2].
  assert (One : exists a b, fsteps (i_left i) = [a] /\ fsteps (i_right i) = [b] /\ (i_first i = true \/ lead <= pl_minT c - (init - st_time prev0))).
  { destruct F5 as [(_ & A & B)|(A & B & a & b & A1 & B1 & A2 & B2 & _)].
    - destruct Fr as [[E1 E2]|(a & b & E1 & E2)].
      + exfalso. rewrite E1 in A. rewrite E2 in B. rewrite fsteps_last in Ep. unfold stance_of in Ep. destruct (i_swingLeft i); [rewrite B in Ep|rewrite A in Ep]; discriminate.
      + exists a, b. rewrite A, B. split; [exact E1|]. split; [exact E2|]. destruct (I2 a b E1 E2) as [J1 J2].
        destruct (Req_dec (st_time a) (st_time b)) as [Q|Q]; [left; auto|right]. rewrite E1, E2 in Ld. cbn [guaranteed_lead] in Ld. destruct Ld as [_ Ld]. specialize (Ld Q).
        destruct (J2 Q) as [_ J3]. rewrite fsteps_last in Ep. unfold stance_of in Ep. rewrite J3 in Ep. destruct (Rltb (st_time a) (st_time b)) eqn:Lt; [apply Rltb_true in Lt|apply Rltb_false in Lt].
        * rewrite B, E2 in Ep. injection Ep as <-. rewrite Rmax_right in Ld by lra. exact Ld.
        * rewrite A, E1 in Ep. injection Ep as <-. rewrite Rmax_left in Ld by lra. exact Ld.
    - exists a, b. repeat split; auto. }
  destruct One as (a & b & Ea & Eb & Lf).
  assert (Ta : st_time a <= init) by (apply F6; rewrite Ea; reflexivity). assert (Tb : st_time b <= init) by (apply F7; rewrite Eb; reflexivity).
  assert (Na : 0 <= st_time a) by (rewrite Ea in F8; inversion F8; auto). assert (Nb : 0 <= st_time b) by (rewrite Eb in F9; inversion F9; auto).
  assert (Epr : prev0 = if i_swingLeft i then b else a).
  { rewrite fsteps_last in Ep. unfold stance_of in Ep. destruct (i_swingLeft i); [rewrite Eb in Ep|rewrite Ea in Ep]; injection Ep as <-; reflexivity. }
  assert (Hpt : st_time prev0 <= init) by (rewrite Epr; destruct (i_swingLeft i); auto).
  assert (Lnom : lead <= pl_nomT c).
  { unfold guaranteed_lead in Ld. destruct (fp_steps lfp), (fp_steps rfp); tauto. }
  pose proof F3 as (P1 & _ & _ & _ & _ & P6). pose proof F4 as (Q1 & _ & _ & _ & _ & Q6). simpl in P1, Q1, P6, Q6.
  assert (SR : search_ready (pl_search c init tend sol) (i_left i) (i_right i) (i_swingLeft i) prev0 (if i_swingLeft i then a else b)).
  { constructor; cbn; auto; try lra. rewrite fsteps_last. unfold swing_of. destruct (i_swingLeft i); [rewrite Ea|rewrite Eb]; reflexivity. }
  pose proof (fun x added => search_first _ _ _ _ _ _ _ _ _ _ _ _ _ _ _ SR H x added) as SF. cbn [g_init g_nomT pl_search] in SF.
  pose proof H as H0. apply search_spec with (prev0 := prev0) in H; simpl; auto; try lra.
  destruct H as (adds & term & S1 & _ & S3 & _ & S5 & S6 & _ & S8). simpl in S1, S3.
  destruct S5 as (_ & _ & _ & _ & _ & S5). destruct S6 as (_ & _ & _ & _ & _ & S6).
  split; [congruence|]. split; [congruence|].
  assert (Hc : chain (paced init (pl_minT c)) (i_swingLeft i) prev0 (adds ++ term)).
  { apply chain_app2. split.
    - eapply chain_impl; [|exact S1]. intros sw x y (_ & _ & A & B & _). split; [lra|exact B].
    - eapply chain_impl; [|exact S3]. unfold nominal_after. intros sw x y P. pose proof (Rmax_l init (st_time x)); pose proof (Rmax_r init (st_time x)). split; lra. }
  assert (G0 : 0 <= pl_minT c) by lra. pose proof (paced_nth _ _ _ _ _ G0 Hc) as N.
  change (fp_steps (ft_fp l')) with (fsteps l'). change (fp_steps (ft_fp r')) with (fsteps r').
  destruct S8 as [(Ne & _ & E1 & E2)|(E0 & Sy)].
  - assert (W : walk (fsteps l') (fsteps r') init lead (pl_minT c)).
    { rewrite E1, E2, Ea, Eb. apply chain_walk; auto; [rewrite <- Epr; exact Hc|]. intros x Hx.
      destruct (adds ++ term) as [|y rest] eqn:Ey; [congruence|]. injection Hx as ->. specialize (SF x rest E1 E2).
      destruct (N 0%nat x eq_refl) as (A & _). destruct SF as [SF|SF]; [|lra]. destruct Lf as [Lf|Lf]; [rewrite Lf in SF; lra|lra]. }
    split; [exact W|]. split; [lra|]. rewrite E1, E2, Ea, Eb. unfold nonneg_times.
    assert (All : forall x, In x (adds ++ term) -> 0 <= st_time x). { intros x Hx. apply In_nth_error in Hx. destruct Hx as [k Hk]. destruct (N _ _ Hk) as (_ & ? & _). lra. }
    split; (constructor; [assumption|]); apply List.Forall_forall; intros x Hx; apply In_nth_error in Hx; destruct Hx as [k Hk]; apply All.
    + pose proof (deal_nth (adds ++ term) (i_swingLeft i) true k) as Q. cbv iota in Q. rewrite Hk in Q. symmetry in Q. eapply nth_error_In; eauto.
    + pose proof (deal_nth (adds ++ term) (i_swingLeft i) false k) as Q. cbv iota in Q. rewrite Hk in Q. symmetry in Q. eapply nth_error_In; eauto.
  - destruct Sy as (a0 & b0 & a' & b' & B1 & B2 & B3 & B4 & T1 & T2 & R1 & R2 & _).
    rewrite Ea in B1, R1. rewrite Eb in B2, R2. injection B1 as <-. injection B2 as <-. cbn [removelast] in R1, R2.
    assert (One : forall (l : list step) x, last_opt l = Some x -> removelast l = [] -> l = [x]).
    { intros [|y [|z l]] x X Y; try discriminate. injection X as <-. reflexivity. }
    rewrite (One _ _ B3 R1), (One _ _ B4 R2).
    assert (M : 0 <= Rmax (st_time a) (st_time b) <= init) by (split; [eapply Rle_trans; [|apply Rmax_l]; auto|apply Rmax_lub; auto]).
    split; [|split; [lra|split; (constructor; [lra|constructor])]].
    pose proof (chain_walk init lead (pl_minT c) [] true a' b' Hm ltac:(lra) ltac:(lra) I ltac:(intros; discriminate)) as W. cbn [deal fst snd app] in W. exact W.
Qed.
