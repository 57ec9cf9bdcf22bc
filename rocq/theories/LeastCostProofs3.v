(** Whole plans: runs of the search and the exact cost. *)
From Coq Require Import Reals ZArith Lra Lia List Bool.
From Flocq Require Import Core IEEE754.BinarySingleNaN.
From Verif Require Import Prelude FootPrint Rounding RoundedGen RoundedGenProofs2 RoundedGenProofs3 EvalTac Doubles DoublesSpec DoublesProofs CtrlDoubles TimedPlan TimedPlanSpec TimedPlanProofs2 TimedPlanProofs3
  StepDoubles StepDoublesSpec StepDoublesProofs StepDoublesProofs3 LeastCostSpec LeastCostProofs LeastCostProofs2.
Import ListNotations.

Section Runs.
Variable P : Type.
Variable c : tcfg f64.
Variable o : geo f64 P.
Notation tst := (tst f64 P).

Lemma run_traced : forall n (s s' : tst), t_run ieee c o n s = TLDone s' -> exists st N, st O = s /\ st N = s' /\ traced c o st N /\ Bleb (t_t s') (c_end c) = false.
Proof.
  induction n as [|n IH]; intros s s' H; cbn [t_run] in H; destruct (a_le ieee (t_t s) (c_end c)) eqn:E; try discriminate; try (inversion H; subst; exists (fun _ => s'), O; repeat split; auto; intros; lia).
  destruct (t_iter ieee c o s) as [s1| |] eqn:I; try discriminate. destruct (IH _ _ H) as (st & N & A & B & C & D). exists (fun k => match k with O => s | S k => st k end), (S N). repeat split; auto.
  - destruct i; [exact E|]. apply C. lia.
  - destruct i; [rewrite A; exact I|]. apply C. lia.
Qed.
(** The offset is the nominal step time or zero. *)
Lemma offset : forall (s s' : tst), t_iter ieee c o s = Ok s' -> t_off s' = t_off s \/ t_off s' = fzero.
Proof.
  intros s s' H. unfold t_iter in H. destruct (t_body ieee c o s) as [s1| |] eqn:B; try discriminate. cbn [rbind] in H. inversion H; subst s'. cbn [t_off]. clear H. unfold t_body in B.
  destruct (_ && _) in B; [|inversion B; auto]. destruct (negb _) in B; [|inversion B; auto]. destruct (_ || _) in B.
  - assert (R0 : forall a b : tst, t_refresh a = Ok b -> t_off b = t_off a) by (intros a b K; unfold t_refresh in K; destruct (last_opt _) in K; inversion K; reflexivity).
    destruct (a_lt ieee (c0 ieee) (t_opt s)).
    + unfold t_best in B. destruct (o_pose o _ _ _ _) in B; [|discriminate]. destruct (t_step _ _ _ _ _ _) as [[l r]|] in B; [|discriminate]. cbn [rbind] in B. apply R0 in B. rewrite B. cbn [t_off]. rewrite c0_zero. auto.
    + unfold t_parallel in B. destruct (o_still o _ _ _ _) as [[]|] in B; cbn [negb rbind] in B; try discriminate; [apply R0 in B; rewrite B; auto|].
      destruct (o_par o _ _ _) in B; [|discriminate]. destruct (t_step _ _ _ _ _ _) as [[l r]|] in B; [|discriminate]. cbn [rbind] in B. apply R0 in B. rewrite B. cbn [t_off]. rewrite c0_zero. auto.
  - unfold t_try in B. destruct (o_cand o _ _ _ _ _ _) as [cd|] in B; [|discriminate]. destruct (if a_lt ieee (c0 ieee) _ then cd else None) in B; [|inversion B; auto]. destruct (_ || _) in B; inversion B; auto.
Qed.
Lemma later_positive : forall init off t, Bltb init fzero = false -> Bltb off fzero = false -> lt64 (fadd init off) t -> lt64 fzero t.
Proof.
  intros init off t Hi Ho H. destruct (lt64_number _ _ H) as (Ns & Nt). apply lt64_inv in H. pose proof inf_pos as IP.
  assert (Ni : number init) by (intros ->; apply Ns; reflexivity). assert (No : number off) by (intros ->; apply Ns; destruct init; reflexivity).
  assert (Nz : number fzero) by discriminate. rewrite blt_key in Hi, Ho by auto. rcasesh Hi; [discriminate|]. rename Hc into Ki. rcasesh Ho; [discriminate|]. rename Hc into Ko. change (key fzero) with 0%R in *.
  apply lt64_key; auto. change (key fzero) with 0%R. destruct (number_cases init Ni) as [Fi|[->| ->]].
  - destruct (fadd_up init off Fi No) as (_ & K & _); lra.
  - assert (fadd finf off = finf) by (destruct (number_cases off No) as [F|[->| ->]]; [destruct off as [|b| |]; try reflexivity; discriminate F|reflexivity|simpl in Ko; exfalso; lra]). rewrite H0 in H. simpl in H. lra.
  - simpl in Ki. exfalso. lra.
Qed.
Lemma all_timed : forall st n, traced c o st n -> (Bltb (c_init c) fzero = false) -> Bltb (t_off (st O)) fzero = false ->
  forall i cost, (i <= n)%nat -> examined c o (st i) cost -> lt64 fzero (t_t (st i)).
Proof.
  intros st n T Hi Ho. assert (K : forall i, (i <= n)%nat -> Bltb (t_off (st i)) fzero = false).
  { induction i as [|i IH]; intros L; auto. destruct (T i ltac:(lia)) as (_ & E). destruct (offset _ _ E) as [-> | ->]; [apply IH; lia|reflexivity]. }
  intros i cost L [_ E _ _ _ _ _]. eapply later_positive; [exact Hi|apply K; exact L|exact E].
Qed.
Lemma begins_eq : forall l r sw (first : bool) prev, MkTS l r sw (c_init c) (a_q ieee (-1) 1) (a_q ieee 10000000000 1) (a_sub ieee (c_init c) (snd prev)) (if first then c_nom c else c0 ieee) prev = begins c l r sw first prev :> tst.
Proof. intros. rewrite minus1, c0_zero. reflexivity. Qed.

Theorem plan_least : forall n left right left' right' sw' sl, Bltb (c_nom c) fzero = false -> t_plan ieee c o n left right = TDone left' right' sw' sl ->
  exists l r (sw first : bool) prev st N b l2 r2,
  begun (c_init c) (o_first o) left right l r /\ last_opt (if sw then r else l) = Some prev /\ st O = begins c l r sw first prev /\ traced c o st N /\ Bleb (t_t (st N)) (c_end c) = false
  /\ (forall m k, (k < N)%nat -> between st m k -> (forall j cost, (m <= j < k)%nat -> examined c o (st j) cost -> number cost) -> exists x, takes (st k) (st (S k)) x /\ least c o st m k x)
  /\ terminated c o (t_sw (st N)) (t_left (st N)) (t_right (st N)) (t_prev (st N)) b l2 r2 /\ sw' = t_sw (st N)
  /\ ((length l2 + length r2 <> length l + length r)%nat -> left' = l2 /\ right' = r2).
Proof.
  intros n left right left' right' sw' sl Hn H. unfold t_plan in H. destruct (negb (o_checks o)); [discriminate|]. destruct (t_feet ieee c o left right) as [[[[l r] sw] first]|] eqn:FE; [|discriminate].
  destruct (a_le ieee (c_end c) (c_init c)); [discriminate|]. destruct (negb (o_integ o)); [discriminate|].
  unfold t_search in H. destruct (last_opt (if sw then r else l)) as [prev|] eqn:LP; [|discriminate].
  assert (Bg : begun (c_init c) (o_first o) left right l r /\ Bltb (c_init c) fzero = false).
  { unfold t_feet in FE. unfold begun. assert (BZ : below0 ieee (c_init c) = Bltb (c_init c) fzero) by (unfold below0; rewrite c0_zero; reflexivity). destruct left as [|x lx], right as [|y ry]; cbn [last_opt] in FE.
    - destruct (o_point o); [|discriminate]. inversion FE; subst l r. unfold t_keep, t_add in *. rewrite BZ in *. destruct (Bltb (c_init c) fzero); [|repeat split; reflexivity]. destruct sw; discriminate LP.
    - destruct (last_opt (y :: ry)) as [z|] eqn:Z. 2:{ exfalso. clear -Z. revert y Z. induction ry; intros y Z; [discriminate|]. cbn in Z. eapply IHry. exact Z. }
      cbn in Z. rewrite Z, BZ in FE. destruct (Bltb (c_init c) fzero); [rewrite orb_true_r in FE; discriminate FE|]. destruct (_ || _); [discriminate|]. inversion FE; auto.
    - destruct (last_opt (x :: lx)) as [z|] eqn:Z. 2:{ exfalso. clear -Z. revert x Z. induction lx; intros x Z; [discriminate|]. cbn in Z. eapply IHlx. exact Z. }
      cbn in Z. rewrite Z, BZ in FE. destruct (Bltb (c_init c) fzero); [rewrite orb_true_r in FE; discriminate FE|]. destruct (_ || _); [discriminate|]. inversion FE; auto.
    - destruct (last_opt (x :: lx)) as [z|] eqn:Z. 2:{ exfalso. clear -Z. revert x Z. induction lx; intros x Z; [discriminate|]. cbn in Z. eapply IHlx. exact Z. }
      destruct (last_opt (y :: ry)) as [z'|] eqn:Z'. 2:{ exfalso. clear -Z'. revert y Z'. induction ry; intros y Z'; [discriminate|]. cbn in Z'. eapply IHry. exact Z'. }
      cbn in Z, Z'. rewrite Z, Z', BZ in FE. destruct (Bltb (c_init c) fzero).
      + exfalso. rewrite !orb_true_r in FE. cbn [orb] in FE. destruct (a_eq _ _ _); [|destruct (a_lt ieee (snd z) (snd z'))]; discriminate FE.
      + destruct (a_eq _ _ _); [|destruct (a_lt ieee (snd z) (snd z'))]; destruct (_ || _); try discriminate; inversion FE; auto. }
  destruct Bg as (Bg & Hi). rewrite begins_eq in H. set (s0 := begins c l r sw first prev) in *.
  destruct (t_run ieee c o n s0) as [s| |] eqn:RE; try discriminate. destruct (run_traced _ _ _ RE) as (st & N & S0 & SN & TR & EN).
  assert (G0 : good P c o s0) by (constructor; [exact LP|intros K; discriminate K]).
  assert (GN : good P c o s) by (destruct (run_chained P c o _ _ _ G0 RE) as (_ & _ & K & _); exact K).
  assert (TE : exists b l2 r2, terminated c o (t_sw s) (t_left s) (t_right s) (t_prev s) b l2 r2 /\ (if c_addTerm c then t_terminal ieee c o (t_sw s) (t_left s) (t_right s) else Ok (t_left s, t_right s)) = Ok (l2, r2)).
  { destruct (c_addTerm c) eqn:AT.
    - destruct (t_terminal ieee c o (t_sw s) (t_left s) (t_right s)) as [[l2 r2]| |] eqn:TE; try discriminate. destruct (terminal_shape P c o _ _ _ _ _ _ (gd_prev _ _ _ _ GN) TE) as (b & B). exists b, l2, r2. auto.
    - exists [], (t_left s), (t_right s). split; [repeat split; auto|reflexivity]. }
  destruct TE as (b & l2 & r2 & T1 & T2). rewrite T2 in H. exists l, r, sw, first, prev, st, N, b, l2, r2. rewrite SN. split; [exact Bg|]. split; [exact LP|]. split; [exact S0|]. split; [exact TR|]. split; [exact EN|].
  split; [|split; [exact T1|]].
  - intros m k Lk BT NU. assert (TR' : traced c o st (S k)) by (intros i Hik; apply TR; lia).
    apply (chosen_least P c o st k); auto.
    + split; [rewrite S0; exact G0|rewrite S0; reflexivity].
    + intros i cost Hik. apply (all_timed st N); auto; [|lia]. rewrite S0. unfold s0, begins. cbn [t_off]. destruct first; auto.
  - destruct (Nat.eqb (length l) (length l2) && Nat.eqb (length r) (length r2)) eqn:NE.
    + apply andb_true_iff in NE. rewrite !Nat.eqb_eq in NE. split.
      * destruct (t_sync ieee c o l2 r2) as [[[l3 r3] sl3]| |]; inversion H; subst; auto.
      * intros K. exfalso. lia.
    + inversion H; subst. auto.
Qed.
End Runs.

(** ** Exact costs *)
Open Scope R_scope.
Section Exact.
Variables (sq cosf sinf : f64 -> f64) (at2 : f64 -> f64 -> f64).
Hypothesis trig : close_trig cosf sinf.
Hypothesis squ : close_square sq.
Variable S : field -> f64.
Hypothesis Ht : 0 <= f2r (S q_timeW).
Hypothesis Hp : 0 <= f2r (S q_posW).
Notation M := (ieee_maths sq cosf sinf at2).
Variables (c : tcfg f64) (back : bool) (free : option (dell f64)) (sol : f64 -> dpose f64) (first : dpose f64) (tend : f64) (checks integ point : bool) (lateral : option bool).
Hypothesis Fm : fin (c_max c) = true.
Notation o := (step_geo ieee M S (prob_of S back free) sol first tend checks integ point lateral).
Notation landing := (landing_of S (g_pose ieee M S) sol).

Lemma landing_near : forall s cost, last_opt (t_stance s) = Some (t_prev s) -> examined c o s cost -> fin cost = true -> 0 <= landing s /\ Rabs (f2r cost - landing s) <= bpow radix2 (-47) * landing s + cost_slack S.
Proof.
  intros s cost LP [_ _ _ E1 _ E2 E3] F. set (dt := fsub (fsub (t_t s) (snd (t_prev s))) (t_pause s)) in *.
  assert (Fd : fin dt = true).
  { destruct (lt64_number _ _ E2) as (_ & Nd). rewrite blt_key in E1 by (auto; apply fin_number; auto). rcasesh E1; [discriminate|]. destruct (fin_key _ Fm) as (_ & K). destruct (number_cases dt Nd) as [K1|[K1|K1]]; auto.
    - rewrite K1 in Hc. change (key finf) with (bpow radix2 1024) in Hc. exfalso. lra.
    - apply lt64_inv in E2. rewrite K1 in E2. change (key fzero) with 0 in E2. change (key (B754_infinity true)) with (- bpow radix2 1024) in E2. pose proof inf_pos. exfalso. lra. }
  assert (GL : g_last (if t_sw s then t_right s else t_left s) = Some (fst (t_prev s))) by (unfold g_last; unfold t_stance in LP; destruct (t_sw s); rewrite LP; reflexivity).
  cbn [step_geo o_cand] in E3. rewrite GL in E3. cbv zeta in E3. destruct (k_ok ieee M _ _) in E3; [|discriminate E3]. injection E3 as E3. subst cost.
  assert (L0 : 0 <= landing s).
  { unfold landing_of, landing64. fold dt. assert (PD : 0 < f2r dt) by (unfold lt64 in E2; rewrite blt_ok in E2 by auto; rcasesh E2; [exact Hc|discriminate]).
    assert (0 <= f2r (S q_timeW) / (f2r dt * f2r dt)) by (apply Rmult_le_pos; auto; apply Rlt_le, Rinv_0_lt_compat, Rmult_lt_0_compat; auto). assert (0 <= f2r (S q_posW) * (apart (spot (fst (t_prev s))) (spot (g_pose ieee M S (t_sw s) (sol (t_t s)))) * apart (spot (fst (t_prev s))) (spot (g_pose ieee M S (t_sw s) (sol (t_t s)))))) by (apply Rmult_le_pos; auto; apply Rle_0_sqr). lra. }
  split; auto. exact (cost_near sq cosf sinf at2 trig squ S (Some (S q_maxLen)) (if back then Some (S q_maxBack) else None) (Some (S q_minWidth)) (Some (S q_maxAngle)) free (t_sw s) (fst (t_prev s)) (sol (t_t s)) (a_abs ieee (fsub (g_heading ieee S (negb (t_sw s)) (fst (t_prev s))) (d_th (sol (t_t s))))) dt Ht Hp Fd E2 F).
Qed.
Lemma nearly : forall a b x y d, 0 <= a -> 0 <= b -> 0 <= d -> Rabs (x - a) <= bpow radix2 (-47) * a + d -> Rabs (y - b) <= bpow radix2 (-47) * b + d -> x <= y -> a <= b + bpow radix2 (-45) * b + 4 * d.
Proof.
  intros a b x y d A B D X Y L. apply Rabs_le_inv in X. apply Rabs_le_inv in Y. assert (E : bpow radix2 (-45) = 4 * bpow radix2 (-47)) by (change (-45)%Z with (2 + -47)%Z; rewrite bpow_plus; reflexivity). rewrite E.
  set (e := bpow radix2 (-47)) in *. assert (E0 : 0 < e) by apply bpow_gt_0. assert (E1 : e <= / 1024) by (apply (bpow_le radix2 (-47) (-10)); lia).
  assert (EB : 0 <= e * b) by (apply Rmult_le_pos; lra). assert (EEB : e * (e * b) <= / 1024 * (e * b)) by (apply Rmult_le_compat_r; lra). assert (ED : e * d <= / 1024 * d) by (apply Rmult_le_compat_r; lra).
  assert (K : a * (1 - e) <= b * (1 + e) + 2 * d) by lra. assert (Z : (b + 4 * e * b + 4 * d) * (1 - e) >= b * (1 + e) + 2 * d) by lra.
  apply Rnot_lt_le. intros N. assert ((b + 4 * e * b + 4 * d) * (1 - e) < a * (1 - e)) by (apply Rmult_lt_compat_r; lra). lra.
Qed.
Theorem landing_least : forall s cost s' cost', last_opt (t_stance s) = Some (t_prev s) -> last_opt (t_stance s') = Some (t_prev s') -> examined c o s cost -> examined c o s' cost' ->
  fin cost = true -> fin cost' = true -> le64 cost cost' -> landing s <= landing s' + bpow radix2 (-45) * landing s' + 4 * cost_slack S.
Proof.
  intros s cost s' cost' L L' E E' F F' LE. destruct (landing_near s cost L E F) as (P0 & N0). destruct (landing_near s' cost' L' E' F') as (P1 & N1).
  apply (nearly _ _ (f2r cost) (f2r cost')); auto.
  - unfold cost_slack. apply Rmult_le_pos; [lra|apply bpow_ge_0].
  - unfold le64 in LE. rewrite ble_ok in LE by auto. rcasesh LE; [exact Hc|discriminate].
Qed.
End Exact.
