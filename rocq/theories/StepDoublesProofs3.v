(** Every step of a plan was examined. *)
From Coq Require Import Reals ZArith Lra Lia List Bool.
From Flocq Require Import Core IEEE754.BinarySingleNaN.
From Verif Require Import Prelude FootPrint Doubles DoublesSpec DoublesProofs CtrlDoubles TimedPlan TimedPlanSpec TimedPlanProofs2 TimedPlanProofs3 StepDoubles StepDoublesSpec.
Import ListNotations.

Section Trace.
Variable P : Type.
Variable c : tcfg f64.
Variable o : geo f64 P.
Notation tst := (tst f64 P).

Definition found (sw : bool) (l r : list (P * f64)) (prev : P * f64) (t : f64) : Prop :=
  exists dt pause cost, o_cand o sw l r prev t dt = Some (Some cost)
    /\ dt = fsub (fsub t (snd prev)) pause /\ lt64 fzero dt /\ Bltb (c_max c) dt = false /\ le64 (c_min c) (fsub t (snd prev)).
Record good (s : tst) : Prop := MkGood {
  gd_prev : last_opt (t_stance s) = Some (t_prev s);
  gd_opt : Bltb fzero (t_opt s) = true -> found (t_sw s) (t_left s) (t_right s) (t_prev s) (t_opt s) }.
Definition stays (s s' : tst) : Prop := t_left s' = t_left s /\ t_right s' = t_right s /\ t_sw s' = t_sw s /\ t_prev s' = t_prev s.
Definition steps (s s' : tst) : Prop := exists x,
  (sampled c o (t_sw s) (t_left s) (t_right s) (t_prev s) x \/ paralleled c o (t_sw s) (t_left s) (t_right s) (t_prev s) x)
  /\ t_left s' = (if t_sw s then t_left s ++ [x] else t_left s) /\ t_right s' = (if t_sw s then t_right s else t_right s ++ [x])
  /\ t_sw s' = negb (t_sw s) /\ t_prev s' = x.

Lemma step_lists : forall (sw : bool) (l r : list (P * f64)) p t l' r', t_step ieee sw l r p t = Some (l', r') ->
  l' = (if sw then l ++ [(p, t)] else l) /\ r' = (if sw then r else r ++ [(p, t)]).
Proof. intros sw l r p t l' r' H. unfold t_step, t_add in H. destruct sw; destruct (below0 ieee t); inversion H; auto. Qed.
Lemma minus_one : Bltb fzero (a_q ieee (-1) 1) = false.
Proof. vm_compute. reflexivity. Qed.

Lemma body_good : forall s s', good s -> t_body ieee c o s = Ok s' -> good s' /\ (stays s s' \/ steps s s').
Proof.
  intros s s' (G1 & G2) H. unfold t_body in H.
  assert (Q0 : good s /\ (stays s s \/ steps s s)) by (split; [constructor; auto|left; repeat split]).
  assert (Q1 : forall a, let s1 := MkTS (t_left s) (t_right s) (t_sw s) (t_t s) (t_opt s) (t_minCost s) a (t_off s) (t_prev s) in good s1 /\ (stays s s1 \/ steps s s1))
    by (intros a s1; split; [constructor; auto|left; repeat split]).
  destruct (a_le ieee (c_min c) (a_sub ieee (t_t s) (snd (t_prev s))) && a_lt ieee (a_add ieee (c_init c) (t_off s)) (t_t s)) eqn:C; [|inversion H; subst; exact Q0].
  apply andb_true_iff in C. destruct C as (C1 & _). change (le64 (c_min c) (fsub (t_t s) (snd (t_prev s)))) in C1.
  destruct (negb (o_tiny o (t_sw s) (t_left s) (t_right s) (t_t s))); [|inversion H; subst; apply Q1].
  destruct (a_lt ieee (c_max c) (a_sub ieee (a_sub ieee (t_t s) (snd (t_prev s))) (t_pause s)) || a_eq ieee (t_t s) (c_end c)) eqn:D.
  - destruct (a_lt ieee (c0 ieee) (t_opt s)) eqn:OP.
    + unfold t_best in H. destruct (o_pose o (t_sw s) (t_left s) (t_right s) (t_opt s)) as [p|] eqn:PE; [|discriminate].
      destruct (t_step ieee (t_sw s) (t_left s) (t_right s) p (t_opt s)) as [[l r]|] eqn:SE; [|discriminate]. cbn [rbind] in H.
      destruct (step_lists _ _ _ _ _ _ _ SE) as (El & Er). pose proof (step_last P _ _ _ _ _ _ _ SE) as LE.
      unfold t_refresh, t_stance in H. cbn [t_sw t_left t_right] in H. assert (LE' : @last_opt (P * f64) (if negb (t_sw s) return tfoot f64 P then r else l) = Some (p, t_opt s)) by (destruct (t_sw s); exact LE).
      rewrite LE' in H. inversion H; subst s'. clear H. split.
      * constructor; [exact LE'|]. intros K. discriminate K.
      * right. exists (p, t_opt s). split; [|repeat split; auto]. left. rewrite c0_zero in OP. destruct (G2 OP) as (dt & pause & cost & K1 & K2). exists dt, pause, cost. split; [exact K1|]. split; [exact PE|exact K2].
    + unfold t_parallel in H. destruct (o_still o (t_sw s) (t_left s) (t_right s) (t_prev s)) as [tiny|] eqn:ST; [|discriminate]. destruct tiny; cbn [negb] in H.
      * cbn [rbind] in H. unfold t_refresh in H. change (t_stance _) with (t_stance s) in H at 1. rewrite G1 in H. inversion H; subst. apply Q1.
      * destruct (o_par o (t_sw s) (t_left s) (t_right s)) as [p|] eqn:PA; [|discriminate].
        destruct (t_step ieee (t_sw s) (t_left s) (t_right s) p (t_t s)) as [[l r]|] eqn:SE; [|discriminate]. cbn [rbind] in H.
        destruct (step_lists _ _ _ _ _ _ _ SE) as (El & Er). pose proof (step_last P _ _ _ _ _ _ _ SE) as LE.
        unfold t_refresh, t_stance in H. cbn [t_sw t_left t_right] in H. assert (LE' : @last_opt (P * f64) (if negb (t_sw s) return tfoot f64 P then r else l) = Some (p, t_t s)) by (destruct (t_sw s); exact LE).
        rewrite LE' in H. inversion H; subst s'. clear H. split.
        -- constructor; [exact LE'|]. cbn [t_opt]. rewrite c0_zero in OP. cbn [a_lt ieee] in OP. rewrite OP. discriminate.
        -- right. exists (p, t_t s). split; [|repeat split; auto]. right. repeat split; auto.
  - unfold t_try in H. set (dt := a_sub ieee (a_sub ieee (t_t s) (snd (t_prev s))) (t_pause s)) in *.
    destruct (o_cand o (t_sw s) (t_left s) (t_right s) (t_prev s) (t_t s) dt) as [cd|] eqn:CE; [|discriminate].
    destruct (a_lt ieee (c0 ieee) dt) eqn:DT; [|inversion H; subst; exact Q0]. destruct cd as [cost|]; [|inversion H; subst; exact Q0].
    destruct (a_lt ieee (t_opt s) (c0 ieee) || a_le ieee cost (t_minCost s)); [|inversion H; subst; exact Q0]. inversion H; subst s'. clear H.
    apply orb_false_iff in D. destruct D as (D & _). split; [|left; repeat split].
    constructor; [exact G1|]. intros _. exists dt, (t_pause s), cost. rewrite c0_zero in DT. split; [exact CE|]. split; [reflexivity|]. split; [exact DT|]. split; [exact D|exact C1].
Qed.
Lemma iter_good : forall s s', good s -> t_iter ieee c o s = Ok s' -> good s' /\ (stays s s' \/ steps s s').
Proof.
  intros s s' G H. unfold t_iter in H. destruct (t_body ieee c o s) as [s1| |] eqn:B; try discriminate. cbn [rbind] in H. inversion H; subst s'.
  destruct (body_good _ _ G B) as ((G1 & G2) & K). split; [constructor; auto|]. exact K.
Qed.
Lemma run_chained : forall n s s', good s -> t_run ieee c o n s = TLDone s' -> exists new,
  chained (fun sw l r prev x => sampled c o sw l r prev x \/ paralleled c o sw l r prev x) (t_sw s) (t_left s) (t_right s) (t_prev s) new (t_left s') (t_right s')
  /\ good s' /\ t_sw s' = turn (t_sw s) new /\ t_prev s' = last new (t_prev s).
Proof.
  induction n as [|n IH]; intros s s' G H; cbn [t_run] in H; destruct (a_le ieee (t_t s) (c_end c)); try discriminate; try (inversion H; subst; exists []; repeat split; auto; apply G).
  destruct (t_iter ieee c o s) as [s1| |] eqn:E; try discriminate. destruct (iter_good _ _ G E) as (G1 & [(A1 & A2 & A3 & A4)|(x & A0 & A1 & A2 & A3 & A4)]); destruct (IH _ _ G1 H) as (new & B1 & B2 & B3 & B4).
  - exists new. rewrite A1, A2, A3, A4 in *. auto.
  - exists (x :: new). rewrite A1, A2, A3, A4 in *. split; [split; auto|]. split; auto. split; auto. rewrite B4. apply last_cons.
Qed.

Lemma terminal_shape : forall (sw : bool) (l r : list (P * f64)) prev l' r', last_opt (if sw then r else l) = Some prev -> t_terminal ieee c o sw l r = Ok (l', r') ->
  exists new, terminated c o sw l r prev new l' r'.
Proof.
  intros sw l r prev l' r' Hp H. unfold t_terminal in H. rewrite Hp in H.
  set (a := a_add ieee (c_init c) (c_nom c)) in *. set (b := a_add ieee (snd prev) (c_nom c)) in *. set (t := if a_lt ieee a b then b else a) in *. cbv zeta in H.
  destruct (o_term o sw l r prev (a_sub ieee t (snd prev))) as [[]|] eqn:T; try discriminate.
  - destruct (o_pose o sw l r (c_end c)) as [p|] eqn:E1; [|discriminate]. destruct (t_step ieee sw l r p t) as [[l1 r1]|] eqn:S1; [|discriminate].
    destruct (o_pose o (negb sw) l1 r1 (c_end c)) as [q|] eqn:E2; [|discriminate]. destruct (t_step ieee (negb sw) l1 r1 q (a_add ieee t (c_nom c))) as [x|] eqn:S2; [|discriminate]. inversion H; subst x.
    apply step_lists in S1. apply step_lists in S2. destruct S1 as (-> & ->), S2 as (-> & ->). exists [(p, t); (q, a_add ieee t (c_nom c))]. split; [exact T|]. split; [exact E1|]. cbv zeta. split; [exact E2|]. destruct sw; split; reflexivity.
  - destruct (o_still o sw l r prev) as [[]|] eqn:ST; try discriminate; cbn [negb] in H.
    + inversion H; subst. exists []. repeat split; auto.
    + destruct (o_par o sw l r) as [p|] eqn:PA; [|discriminate]. destruct (t_step ieee sw l r p t) as [x|] eqn:S1; [|discriminate]. inversion H; subst x. apply step_lists in S1. destruct S1 as (-> & ->).
      exists [(p, t)]. split; [exact PA|]. split; [exact ST|]. destruct sw; split; reflexivity.
Qed.

Lemma chained_length : forall (Q : bool -> list (P * f64) -> list (P * f64) -> P * f64 -> P * f64 -> Prop) new sw l r prev l' r',
  chained Q sw l r prev new l' r' -> (length l' + length r' = length l + length r + length new)%nat /\ (length l <= length l')%nat /\ (length r <= length r')%nat.
Proof.
  intros Q new. induction new as [|x new IH]; intros sw l r prev l' r' H; cbn [chained] in H; [destruct H as (-> & ->); simpl; lia|].
  destruct H as (_ & H). apply IH in H. destruct sw; rewrite app_length in H; simpl in *; lia.
Qed.
Lemma terminated_length : forall sw l r prev new l' r', terminated c o sw l r prev new l' r' ->
  (length l' + length r' = length l + length r + length new)%nat /\ (length l <= length l')%nat /\ (length r <= length r')%nat.
Proof.
  intros sw l r prev new l' r' H. destruct new as [|x [|y [|z new]]]; cbn [terminated] in H.
  - destruct H as (-> & -> & _). simpl. lia.
  - destruct H as (_ & _ & H). destruct sw; destruct H as (-> & ->); rewrite app_length; simpl; lia.
  - destruct H as (_ & _ & H). cbv zeta in H. destruct H as (_ & H). destruct sw; destruct H as (-> & ->); rewrite !app_length; simpl; lia.
  - destruct H.
Qed.

Theorem plan_chained : forall n left right left' right' sw' sl, t_plan ieee c o n left right = TDone left' right' sw' sl ->
  exists l r (sw : bool) prev a b l1 r1 l2 r2,
  begun (c_init c) (o_first o) left right l r
  /\ last_opt (if sw then r else l) = Some prev
  /\ chained (fun sw l r prev x => sampled c o sw l r prev x \/ paralleled c o sw l r prev x) sw l r prev a l1 r1
  /\ terminated c o (turn sw a) l1 r1 (last a prev) b l2 r2 /\ last_opt (if turn sw a then r1 else l1) = Some (last a prev) /\ sw' = turn sw a
  /\ (a ++ b <> [] -> left' = l2 /\ right' = r2).
Proof.
  intros n left right left' right' sw' sl H. unfold t_plan in H. destruct (negb (o_checks o)); [discriminate|]. destruct (t_feet ieee c o left right) as [[[[l r] sw] first]|] eqn:FE; [|discriminate].
  destruct (a_le ieee (c_end c) (c_init c)); [discriminate|]. destruct (negb (o_integ o)); [discriminate|].
  unfold t_search in H. destruct (last_opt (if sw then r else l)) as [prev|] eqn:LP; [|discriminate].
  assert (Bg : begun (c_init c) (o_first o) left right l r).
  { unfold t_feet in FE. unfold begun. destruct left as [|x lx], right as [|y ry]; cbn [last_opt] in FE.
    - destruct (o_point o); [|discriminate]. inversion FE; subst l r. unfold t_keep, t_add in *. destruct (below0 ieee (c_init c)); [|split; reflexivity]. destruct sw; discriminate LP.
    - destruct (last_opt (y :: ry)) as [z|] eqn:Z. 2:{ exfalso. clear -Z. revert y Z. induction ry; intros y Z; [discriminate|]. cbn in Z. eapply IHry. exact Z. }
      cbn in Z. rewrite Z in FE. destruct (_ || _); [discriminate|]. inversion FE; auto.
    - destruct (last_opt (x :: lx)) as [z|] eqn:Z. 2:{ exfalso. clear -Z. revert x Z. induction lx; intros x Z; [discriminate|]. cbn in Z. eapply IHlx. exact Z. }
      cbn in Z. rewrite Z in FE. destruct (_ || _); [discriminate|]. inversion FE; auto.
    - destruct (last_opt (x :: lx)) as [z|] eqn:Z. 2:{ exfalso. clear -Z. revert x Z. induction lx; intros x Z; [discriminate|]. cbn in Z. eapply IHlx. exact Z. }
      destruct (last_opt (y :: ry)) as [z'|] eqn:Z'. 2:{ exfalso. clear -Z'. revert y Z'. induction ry; intros y Z'; [discriminate|]. cbn in Z'. eapply IHry. exact Z'. }
      cbn in Z, Z'. rewrite Z, Z' in FE. destruct (a_eq _ _ _); [|destruct (a_lt ieee (snd z) (snd z'))]; destruct (_ || _); try discriminate; inversion FE; auto. }
  set (s0 := MkTS l r sw (c_init c) (a_q ieee (-1) 1) (a_q ieee 10000000000 1) (a_sub ieee (c_init c) (snd prev)) (if first then c_nom c else c0 ieee) prev) in *.
  destruct (t_run ieee c o n s0) as [s| |] eqn:RE; try discriminate.
  assert (G0 : good s0) by (constructor; [exact LP|intros K; exfalso; pose proof minus_one as M1; cbn [s0 t_opt] in K; congruence]).
  destruct (run_chained _ _ _ G0 RE) as (a & C1 & (C2 & _) & C3 & C4). cbn [s0 t_sw t_left t_right t_prev] in C1, C3, C4. unfold t_stance in C2. rewrite C3, C4 in C2.
  assert (TE : exists b l2 r2, terminated c o (turn sw a) (t_left s) (t_right s) (last a prev) b l2 r2 /\ (if c_addTerm c then t_terminal ieee c o (t_sw s) (t_left s) (t_right s) else Ok (t_left s, t_right s)) = Ok (l2, r2)).
  { destruct (c_addTerm c) eqn:AT.
    - destruct (t_terminal ieee c o (t_sw s) (t_left s) (t_right s)) as [[l2 r2]| |] eqn:TE; try discriminate. rewrite C3 in TE. destruct (terminal_shape _ _ _ _ _ _ C2 TE) as (b & B). exists b, l2, r2. auto.
    - exists [], (t_left s), (t_right s). split; [repeat split; auto|reflexivity]. }
  destruct TE as (b & l2 & r2 & T1 & T2). rewrite T2 in H. exists l, r, sw, prev, a, b, (t_left s), (t_right s), l2, r2. split; [exact Bg|]. split; [exact LP|]. split; [exact C1|]. split; [exact T1|]. split; [exact C2|].
  pose proof (chained_length _ _ _ _ _ _ _ _ C1) as L1. pose proof (terminated_length _ _ _ _ _ _ _ T1) as L2.
  destruct (Nat.eqb (length l) (length l2) && Nat.eqb (length r) (length r2)) eqn:NE.
  - apply andb_true_iff in NE. rewrite !Nat.eqb_eq in NE. split.
    + destruct (t_sync ieee c o l2 r2) as [[[l3 r3] sl3]| |]; inversion H; subst; auto.
    + intros K. exfalso. apply K. destruct a; [destruct b; [reflexivity|simpl in L1, L2; lia]|simpl in L1, L2; lia].
  - inversion H; subst. auto.
Qed.
End Trace.
