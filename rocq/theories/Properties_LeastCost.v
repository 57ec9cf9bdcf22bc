(** C106: the landing time of least cost in doubles. *)
From Coq Require Import String Reals ZArith List Bool Lia Lra.
From Flocq Require Import Core IEEE754.BinarySingleNaN.
From Verif Require Import Prelude FootPrint RoundedGen EvalTac Doubles DoublesSpec DoublesProofs CtrlDoubles TimedPlan TimedPlanSpec
  StepDoubles StepDoublesSpec StepDoublesProofs StepDoublesProofs3 StepDoublesProofs5 Properties_StepDoubles LeastCostSpec LeastCostProofs LeastCostProofs2 LeastCostProofs3.
Import ListNotations.
Open Scope R_scope.

(** Whatever the answers about positions and costs are: a plan comes from a run of the search in which every step taken is the
    examined sample of least cost since the step before, the latest one of these, if all their costs are numbers; without a
    sample it is next to the other foot. *)
Theorem C106_least : forall P (c : tcfg f64) (o : geo f64 P) n left right left' right' sw' sl,
  Bltb (c_nom c) fzero = false -> t_plan ieee c o n left right = TDone left' right' sw' sl ->
  exists l r (sw first : bool) prev st N b l2 r2,
  begun (c_init c) (o_first o) left right l r /\ last_opt (if sw then r else l) = Some prev /\ st O = begins c l r sw first prev
  /\ traced c o st N /\ Bleb (t_t (st N)) (c_end c) = false
  /\ (forall m k, (k < N)%nat -> between st m k -> (forall j cost, (m <= j < k)%nat -> examined c o (st j) cost -> number cost) ->
      exists x, takes (st k) (st (S k)) x /\ least c o st m k x)
  /\ terminated c o (t_sw (st N)) (t_left (st N)) (t_right (st N)) (t_prev (st N)) b l2 r2 /\ sw' = t_sw (st N)
  /\ ((length l2 + length r2 <> length l + length r)%nat -> left' = l2 /\ right' = r2).
Proof. intros P c o. apply plan_least. Qed.
Print Assumptions C106_least.

(** C106: with the cost that the planner computes, the step taken costs exactly no more than any other examined sample, up to
    rounding. *)
Theorem C106_plan : forall sq cosf sinf at2 S (c : tcfg f64) (back : bool) free sol first0 checks integ point lateral n left right left' right' sw' sl,
  let M := ieee_maths sq cosf sinf at2 in let o := step_geo ieee M S (prob_of S back free) sol first0 (c_end c) checks integ point lateral in
  let landing := landing_of S (g_pose ieee M S) sol in
  close_trig cosf sinf -> close_square sq -> 0 <= f2r (S q_timeW) -> 0 <= f2r (S q_posW) -> fin (c_max c) = true ->
  Bltb (c_nom c) fzero = false -> t_plan ieee c o n left right = TDone left' right' sw' sl ->
  exists l r (sw first : bool) prev st N b l2 r2,
  begun (c_init c) (o_first o) left right l r /\ last_opt (if sw then r else l) = Some prev /\ st O = begins c l r sw first prev
  /\ traced c o st N /\ Bleb (t_t (st N)) (c_end c) = false
  /\ (forall m k, (k < N)%nat -> between st m k -> (forall j cost, (m <= j < k)%nat -> examined c o (st j) cost -> fin cost = true) ->
      exists x, takes (st k) (st (Datatypes.S k)) x
      /\ ((exists i cost, (m <= i < k)%nat /\ examined c o (st i) cost /\ x = (g_pose ieee M S (t_sw (st k)) (sol (t_t (st i))), t_t (st i))
           /\ forall j cost', (m <= j < k)%nat -> examined c o (st j) cost' ->
              landing (st i) <= landing (st j) + bpow radix2 (-45) * landing (st j) + 4 * cost_slack S)
          \/ ((forall j cost', (m <= j < k)%nat -> ~ examined c o (st j) cost') /\ snd x = t_t (st k))))
  /\ terminated c o (t_sw (st N)) (t_left (st N)) (t_right (st N)) (t_prev (st N)) b l2 r2 /\ sw' = t_sw (st N)
  /\ ((length l2 + length r2 <> length l + length r)%nat -> left' = l2 /\ right' = r2).
Proof.
  intros sq cosf sinf at2 S c back free sol first0 checks integ point lateral n left right left' right' sw' sl M o landing trig squ Ht Hp Fm Hn H.
  destruct (plan_least _ c o _ _ _ _ _ _ _ Hn H) as (l & r & sw & first & prev & st & N & b & l2 & r2 & A1 & A2 & A3 & A4 & A5 & A6 & A7).
  exists l, r, sw, first, prev, st, N, b, l2, r2. do 5 (split; [assumption|]). split; [|exact A7]. intros m k Lk BT FI.
  destruct (A6 m k Lk BT) as (x & TX & LX). { intros j cost Hj E. apply fin_number. eapply FI; eauto. }
  exists x. split; [exact TX|].
  assert (G : forall i, (i <= N)%nat -> last_opt (t_stance (st i)) = Some (t_prev (st i))).
  { assert (G : forall i, (i <= N)%nat -> good _ c o (st i)).
    { induction i as [|i IH]; intros L.
      - rewrite A3. constructor; [exact A2|intros K; discriminate K].
      - destruct (A4 i ltac:(lia)) as (_ & E). apply (iter_good _ c o _ _ (IH ltac:(lia)) E). }
    intros i L. apply (gd_prev _ _ _ _ (G i L)). }
  destruct LX as [(i & cost & Hi & E & Tx & Px & MN)|(K1 & K2 & _)]; [|right; split; auto].
  left. exists i, cost. split; [exact Hi|]. split; [exact E|]. split.
  { injection Px as Px. destruct x as [p t]. cbn [fst snd] in *. subst t p. reflexivity. }
  intros j cost' Hj E'. destruct (MN j cost' Hj E') as (LE & _).
  apply (landing_least sq cosf sinf at2 trig squ S Ht Hp c back free sol first0 (c_end c) checks integ point lateral Fm (st i) cost (st j) cost' (G i ltac:(lia)) (G j ltac:(lia)) E E' (FI i cost Hi E) (FI j cost' Hj E') LE).
Qed.
Print Assumptions C106_plan.

(** ** A walk *)
(** The run of the search from a state. *)
Fixpoint after (c : tcfg f64) (o : geo f64 (dpose f64)) (s : tst f64 (dpose f64)) (k : nat) : tst f64 (dpose f64) :=
  match k with O => s | S k => match t_iter ieee c o (after c o s k) with Ok x => x | _ => after c o s k end end.
Definition begin (c : tcfg f64) (o : geo f64 (dpose f64)) : tst f64 (dpose f64) :=
  match t_feet ieee c o [] [] with
  | Some (l, r, sw, first) => begins c l r sw first (match last_opt (if sw then r else l) with Some p => p | None => (MkDP fzero fzero fzero, fzero) end)
  | None => begins c [] [] true true (MkDP fzero fzero fzero, fzero)
  end.
Lemma begin_ready : forall c o, match t_feet ieee c o [] [] with Some (l, r, sw, first) => match last_opt (if sw then r else l) with Some _ => true | None => false end | None => false end = true ->
  last_opt (t_stance (begin c o)) = Some (t_prev (begin c o)) /\ t_opt (begin c o) = fm1 /\ exists l r sw first prev, begin c o = begins c l r sw first prev.
Proof.
  intros c o H. unfold begin. destruct (t_feet ieee c o [] []) as [[[[l r] sw] first]|]; [|discriminate H]. destruct (last_opt (if sw then r else l)) eqn:E; [|discriminate H].
  split; [exact E|]. split; [reflexivity|]. do 5 eexists. reflexivity.
Qed.
Definition moves (c : tcfg f64) (o : geo f64 (dpose f64)) (s : tst f64 (dpose f64)) : bool :=
  Bleb (t_t s) (c_end c) && match t_iter ieee c o s with Ok _ => true | _ => false end.
(** The test [p] of the cost of an examined sample. *)
Definition priced (p : f64 -> bool) (c : tcfg f64) (o : geo f64 (dpose f64)) (s : tst f64 (dpose f64)) : bool :=
  let dt := fsub (fsub (t_t s) (snd (t_prev s))) (t_pause s) in
  if Bltb fzero dt then match o_cand o (t_sw s) (t_left s) (t_right s) (t_prev s) (t_t s) dt with Some (Some x) => p x | _ => true end else true.
Definition looked (c : tcfg f64) (o : geo f64 (dpose f64)) (s : tst f64 (dpose f64)) : bool :=
  let dt := fsub (fsub (t_t s) (snd (t_prev s))) (t_pause s) in
  Bleb (c_min c) (fsub (t_t s) (snd (t_prev s))) && (Bltb (fadd (c_init c) (t_off s)) (t_t s) && (negb (o_tiny o (t_sw s) (t_left s) (t_right s) (t_t s))
  && (negb (Bltb (c_max c) dt) && (negb (Beqb (t_t s) (c_end c)) && (Bltb fzero dt
  && match o_cand o (t_sw s) (t_left s) (t_right s) (t_prev s) (t_t s) dt with Some (Some x) => true | _ => false end))))).
Lemma moves_traced : forall c o s n, forallb (fun k => moves c o (after c o s k)) (seq 0 n) = true -> traced c o (after c o s) n.
Proof.
  intros c o s n H i L. rewrite forallb_forall in H. specialize (H i ltac:(apply in_seq; lia)). unfold moves in H. apply andb_true_iff in H. destruct H as (A & B). split; [exact A|].
  cbn [after]. destruct (t_iter ieee c o (after c o s i)); try discriminate B. reflexivity.
Qed.
Lemma looked_examined : forall c o s, looked c o s = true -> exists cost, examined c o s cost.
Proof.
  intros c o s H. unfold looked in H. repeat (let A := fresh "A" in apply andb_prop in H; destruct H as (A & H)). destruct (o_cand o _ _ _ _ _ _) as [[x|]|] eqn:E in H; try discriminate H.
  exists x. constructor; auto; apply negb_true_iff; assumption.
Qed.
Lemma priced_examined : forall p c o s cost, priced p c o s = true -> examined c o s cost -> p cost = true.
Proof. intros p c o s cost H [_ _ _ _ _ E F]. unfold priced in H. unfold lt64 in E. rewrite E, F in H. exact H. Qed.
(** Without a change of the number of steps no step is taken. *)
Lemma same_length : forall (c : tcfg f64) (o : geo f64 (dpose f64)) s s', good _ c o s -> t_iter ieee c o s = Ok s' -> length (t_left s') = length (t_left s) -> length (t_right s') = length (t_right s) -> no_step s s'.
Proof.
  intros c o s s' G H L1 L2. destruct (iter_kinds _ c o _ _ G H) as [(((A & B & _) & _) & _)|[(cost & A)|((x & A) & _)]].
  - split; assumption.
  - destruct A as ((A & B & _) & _). split; assumption.
  - exfalso. destruct A as ((A & B) & _). rewrite A in L1. rewrite B in L2. destruct (t_sw s); rewrite app_length in *; cbn [length] in *; lia.
Qed.
Definition level (st : nat -> tst f64 (dpose f64)) (i : nat) : bool := Nat.eqb (length (t_left (st (S i)))) (length (t_left (st i))) && Nat.eqb (length (t_right (st (S i)))) (length (t_right (st i))).
Lemma first_window : forall c o s n, last_opt (t_stance s) = Some (t_prev s) -> t_opt s = fm1 -> traced c o (after c o s) (S n) ->
  forallb (level (after c o s)) (seq 0 n) = true -> level (after c o s) n = false -> between (after c o s) O n.
Proof.
  intros c o s n G OP T A B. split; [lia|]. split; [auto|].
  assert (GG : forall i, (i <= S n)%nat -> good _ c o (after c o s i)).
  { induction i as [|i IH]; intros L; [constructor; [exact G|cbn [after]; rewrite OP; intros K; discriminate K]|]. destruct (T i ltac:(lia)) as (_ & E). apply (iter_good _ c o _ _ (IH ltac:(lia)) E). }
  split.
  - intros i L. rewrite forallb_forall in A. specialize (A i ltac:(apply in_seq; lia)). unfold level in A. apply andb_true_iff in A. rewrite !Nat.eqb_eq in A.
    apply (same_length c o); [apply GG; lia|apply T; lia|apply A|apply A].
  - intros (K1 & K2). unfold level in B. rewrite K1, K2, !Nat.eqb_refl in B. discriminate B.
Qed.

(** The walk of C105: the first step is taken at state 32 of the search. The samples 17 and 18 were examined, and the step lands
    at 18, which costs less. *)
Definition ex_geo : geo f64 (dpose f64) := step_geo ieee ex_maths ex_set (prob_of ex_set true None) ex_sol (MkDP fzero fzero fzero) (c_end ex_cfg) true true true None.
Example C106_example : let st := after ex_cfg ex_geo (begin ex_cfg ex_geo) in
  close_trig near_cos near_sin /\ close_square (fun x => fmul x x) /\ 0 <= f2r (ex_set q_timeW) /\ 0 <= f2r (ex_set q_posW) /\ fin (c_max ex_cfg) = true /\ Bltb (c_nom ex_cfg) fzero = false
  /\ match t_plan ieee ex_cfg ex_geo 100 [] [] with TDone _ _ _ _ => True | _ => False end
  /\ traced ex_cfg ex_geo st 33 /\ between st 0 32 /\ (forall j cost, (0 <= j < 32)%nat -> examined ex_cfg ex_geo (st j) cost -> fin cost = true)
  /\ (exists cost, examined ex_cfg ex_geo (st 17%nat) cost) /\ (exists cost, examined ex_cfg ex_geo (st 18%nat) cost)
  /\ match t_left (st 33%nat) with [_; x] => Beqb (snd x) (t_t (st 18%nat)) | _ => false end = true.
Proof.
  intros st. assert (T : traced ex_cfg ex_geo st 33) by (apply moves_traced; vm_compute; reflexivity).
  assert (NN : forall x, Bltb x fzero = false -> fin x = true -> 0 <= f2r x) by (intros x H F; rewrite blt_ok in H by auto; rcasesh H; [discriminate|exact Hc]).
  split; [exact near_trig|]. split; [exact fmul_square|]. split; [apply NN; vm_compute; reflexivity|]. split; [apply NN; vm_compute; reflexivity|].
  split; [vm_compute; reflexivity|]. split; [vm_compute; reflexivity|]. split; [vm_compute; exact I|]. split; [exact T|]. split.
  - destruct (begin_ready ex_cfg ex_geo) as (R1 & R2 & _); [vm_compute; reflexivity|]. apply first_window; [exact R1|exact R2|exact T|vm_compute; reflexivity|vm_compute; reflexivity].
  - split; [|split; [apply looked_examined; vm_compute; reflexivity|split; [apply looked_examined; vm_compute; reflexivity|vm_compute; reflexivity]]].
    assert (K : forallb (fun j => priced fin ex_cfg ex_geo (st j)) (seq 0 32) = true) by (vm_compute; reflexivity).
    intros j cost L E. rewrite forallb_forall in K. apply (priced_examined fin ex_cfg ex_geo (st j)); auto. apply K. apply in_seq. lia.
Qed.

(** ** A cost that is not a number *)
(** Finding: setCostWeights accepts NaN as the time weight. Then every cost is NaN, and the step lands at the first sample
    examined although another one was accepted. *)
Definition nan_set : field -> f64 := settings ieee [sPeriod (fmake 1 (-2)); sWeights f1 fnan].
Definition nan_cfg : tcfg f64 := cfg64 nan_set fzero (fmake 8 0) true true true.
Definition nan_geo : geo f64 (dpose f64) := step_geo ieee ex_maths nan_set (prob_of nan_set true None) ex_sol (MkDP fzero fzero fzero) (c_end nan_cfg) true true true None.
Theorem C106_nan_refuted : calls_accepted (initv ieee) [sPeriod (fmake 1 (-2)); sWeights f1 fnan] = true /\
  exists st k x, (exists l r sw first prev, st O = begins nan_cfg l r sw first prev) /\ traced nan_cfg nan_geo st (S k) /\ between st O k /\ takes (st k) (st (S k)) x
  /\ ~ least nan_cfg nan_geo st O k x
  /\ exists i j, (i < j < k)%nat /\ snd x = t_t (st i) /\ (exists cost, examined nan_cfg nan_geo (st i) cost) /\ exists cost, examined nan_cfg nan_geo (st j) cost.
Proof.
  split; [vm_compute; reflexivity|]. set (st := after nan_cfg nan_geo (begin nan_cfg nan_geo)). assert (T : traced nan_cfg nan_geo st 33) by (apply moves_traced; vm_compute; reflexivity).
  assert (E17 : exists cost, examined nan_cfg nan_geo (st 17%nat) cost) by (apply looked_examined; vm_compute; reflexivity).
  assert (E18 : exists cost, examined nan_cfg nan_geo (st 18%nat) cost) by (apply looked_examined; vm_compute; reflexivity).
  destruct (begin_ready nan_cfg nan_geo) as (R1 & R2 & R3); [vm_compute; reflexivity|].
  assert (B : between st O 32) by (apply first_window; [exact R1|exact R2|exact T|vm_compute; reflexivity|vm_compute; reflexivity]).
  assert (G : forall i, (i <= 33)%nat -> good _ nan_cfg nan_geo (st i)).
  { induction i as [|i IH]; intros L; [constructor; [exact R1|change (st 0%nat) with (begin nan_cfg nan_geo); rewrite R2; intros K; discriminate K]|]. destruct (T i ltac:(lia)) as (_ & E). apply (iter_good _ nan_cfg nan_geo _ _ (IH ltac:(lia)) E). }
  destruct (T 32%nat ltac:(lia)) as (_ & I32). destruct (iter_kinds _ nan_cfg nan_geo _ _ (G 32%nat ltac:(lia)) I32) as [(((A1 & A2 & _) & _) & _)|[(cost & A)|((x & A) & _)]].
  - exfalso. destruct B as (_ & _ & _ & B). apply B. split; assumption.
  - exfalso. destruct B as (_ & _ & _ & B). apply B. destruct A as ((A1 & A2 & _) & _). split; assumption.
  - exists st, 32%nat, x. destruct A as (TX & PX). split; [|split; [exact T|split; [exact B|split; [exact TX|split]]]].
    + exact R3.
    + assert (K : forallb (fun j => priced (fun x => match x with B754_nan => true | _ => false end) nan_cfg nan_geo (st j)) (seq 0 32) = true) by (vm_compute; reflexivity). rewrite forallb_forall in K.
      intros [(i & cost & L & E & _ & _ & MN)|(NO & _)].
      * destruct (MN i cost L E) as (LE & _). pose proof (priced_examined _ _ _ _ _ (K i ltac:(apply in_seq; lia)) E) as Kc. destruct cost; try discriminate Kc. discriminate LE.
      * destruct E17 as (cost & E17). apply (NO 17%nat cost); [lia|exact E17].
    + exists 17%nat, 18%nat. split; [lia|]. split; [|split; assumption]. assert (OP : t_opt (st 32%nat) = t_t (st 17%nat)) by (apply same_f64; vm_compute; reflexivity). rewrite <- OP.
      destruct PX as [(_ & PX & _)|(PX & _)]; [rewrite PX; reflexivity|]. exfalso. assert (K : Bltb fzero (t_opt (st 32%nat)) = true) by (vm_compute; reflexivity). congruence.
Qed.
Print Assumptions C106_nan_refuted.
