(** Plans in doubles are walks for the generator. *)
From Coq Require Import String Reals ZArith List Bool Lia Lra Sorting.Sorted.
From Flocq Require Import Core IEEE754.BinarySingleNaN.
From Verif Require Import Rounding RoundedGen RoundedGenSpec RoundedGenProofs2 RoundedGenProofs3
  Doubles DoublesGen DoublesSpec DoublesProofs DoublesProofs2 DoublesProofs3 DoublesProofs4 DoublesProofs5 DoublesProofs6
  Prelude FootPrint PlannerSpec GenPhases GenSpec EndToEndProofs
  TimedPlan TimedPlanSpec TimedPlanProofs2 TimedPlanProofs3 TimedPlanProofs4.
Import ListNotations.
Open Scope R_scope.

(** Finite arguments are harmless. *)
Lemma finite_tame : forall c, finite_args c -> tame c.
Proof.
  intros c H. split; [intros x I; apply fin_number, H, I|].
  destruct c; auto; unfold finite_args in H; cbn [args In] in H.
  - intros E. assert (F : fin r = true) by (apply H; auto). rewrite E in F. discriminate.
  - assert (F1 : fin l = true) by (apply H; auto). assert (F2 : fin m = true) by (apply H; auto).
    pose proof (Bmult_correct 53 1024 prec64 emax64 mode_NE l m) as Q. fold (fmul l m) in Q.
    destruct (Rlt_bool _ _).
    + destruct Q as (_ & Q & _). apply fin_number. change (is_finite (fmul l m) = true). rewrite Q. unfold fin in *. rewrite F1, F2. auto.
    + apply not_fin in Q. destruct Q as (_ & ->). discriminate.
Qed.
Opaque fadd fsub fmul fdiv fmake f1 fm1 fpi.
Definition tfields : list field := [q_minT; q_maxT; q_nomT; q_period].
Ltac notime := let H := fresh in intros H; exfalso; unfold tfields in H; simpl in H; repeat (destruct H as [H|H]; [discriminate H|]); exact H.
Lemma updt_fin : forall s q v, (forall p, In p tfields -> fin (s p) = true) -> (In q tfields -> fin v = true) ->
  forall p, In p tfields -> fin (upd s q v p) = true.
Proof. intros s q v H V p Hp. unfold upd. destruct (field_eq_dec p q); subst; auto. Qed.
Lemma time_fin_step : forall c s, finite_args c -> (forall p, In p tfields -> fin (s p) = true) ->
  forall p, In p tfields -> fin (fst (setv ieee c s) p) = true.
Proof.
  intros c s F I. unfold finite_args in F.
  destruct c; cbn [args In] in F; cbn [setv];
  repeat match goal with |- context [if ?b then _ else _] => lazymatch b with
    | field_eq_dec _ _ => fail | _ => let E := fresh "E" in destruct b eqn:E end end; cbn [fst]; try exact I;
  repeat (apply updt_fin; [first [exact I|idtac]|first [notime|intros _; argfin|idtac]]).
Qed.
Lemma time_fin : forall l, List.Forall finite_args l -> forall p, In p tfields -> fin (settings ieee l p) = true.
Proof.
  intros l H. unfold settings.
  assert (V0 : forall p, In p tfields -> fin (initv ieee p) = true).
  { intros p Hp. unfold tfields in Hp. simpl in Hp. repeat (destruct Hp as [Hp|Hp]; [subst p; unfold initv; apply q_ok; lia|]). contradiction. }
  revert V0. generalize (initv ieee).
  induction H; simpl; auto. intros s V. apply IHForall. intros p Hp. apply time_fin_step; auto.
Qed.

(** Only the times matter for a walk. *)
Lemma nth_times : forall l l' i s, map st_time l = map st_time l' -> nth_error l i = Some s -> exists s', nth_error l' i = Some s' /\ st_time s' = st_time s.
Proof.
  intros l l' i s E H. assert (Q : nth_error (map st_time l') i = Some (st_time s)) by (rewrite <- E, nth_error_map, H; reflexivity).
  rewrite nth_error_map in Q. destruct (nth_error l' i) as [s'|]; [|discriminate]. inversion Q. eauto.
Qed.
Lemma timed_times : forall l l', map st_time l = map st_time l' -> strictly_timed l -> strictly_timed l'.
Proof.
  intros l l' E H. unfold strictly_timed in *. revert l' E. induction H as [|a l H IH F]; intros [|a' l'] E; try discriminate; constructor.
  - apply IH. inversion E. auto.
  - injection E as Ea El. rewrite List.Forall_forall in *. intros x Hx. apply In_nth_error in Hx. destruct Hx as (i & Hx).
    destruct (nth_times l' l i x (eq_sym El) Hx) as (y & Y1 & Y2). pose proof (F y (nth_error_In _ _ Y1)). lra.
Qed.
Lemma walk_times : forall l r l' r' init lead gap, map st_time l = map st_time l' -> map st_time r = map st_time r' ->
  walk l r init lead gap -> walk l' r' init lead gap.
Proof.
  intros l r l' r' init lead gap E1 E2 [W1 W2 W3 W4 W5 W6 W7].
  assert (N : forall b i s, nth_error (foot_list l' r' b) i = Some s -> exists s', nth_error (foot_list l r b) i = Some s' /\ st_time s' = st_time s).
  { intros b i s H. destruct b; [apply (nth_times l' l)|apply (nth_times r' r)]; auto. }
  assert (PN : forall b i s, planned_step l' r' b i s -> exists s', planned_step l r b i s' /\ st_time s' = st_time s).
  { intros b i s (A & H). destruct (N _ _ _ H) as (s' & H1 & H2). exists s'. split; [split|]; auto. }
  constructor.
  - apply timed_times with l; auto.
  - apply timed_times with r; auto.
  - intros ->. destruct l; [congruence|discriminate].
  - intros ->. destruct r; [congruence|discriminate].
  - intros b s H. destruct (N _ _ _ H) as (s' & H1 & <-). eauto.
  - intros b i s H. destruct (PN _ _ _ H) as (s' & H1 & <-). eauto.
  - intros b i s b' i' s' H H' D. destruct (PN _ _ _ H) as (x & X1 & <-). destruct (PN _ _ _ H') as (y & Y1 & <-). eauto.
Qed.

Section Walk.
Variable P : Type.
Variable c : tcfg f64.
Variable B : R.
Hypothesis Fi : fin (c_init c) = true.
Hypothesis Fe : fin (c_end c) = true.
Hypothesis Fn : fin (c_nom c) = true.
Hypothesis Fm : fin (c_min c) = true.
Hypothesis Hi : 0 <= f2r (c_init c).
Hypothesis Hmn : f2r (c_min c) <= f2r (c_nom c).
Hypothesis HB : f2r (c_end c) + 3 * f2r (c_nom c) <= B.
Hypothesis HB2 : bpow radix2 (-900) <= B <= bpow radix2 900.
Hypothesis Hg : bpow radix2 (-48) * B <= f2r (c_min c).
Hypothesis Hie : f2r (c_init c) < f2r (c_end c).

Definition rgap : R := f2r (c_min c) - bpow radix2 (-51) * B.
Definition rt (x : P * f64) : step := MkStep vzero 0 (f2r (snd x)) EmptyString.

Lemma consts : 0 < B /\ bpow radix2 (-48) = / 281474976710656 /\ bpow radix2 (-51) = / 2251799813685248 /\ u64 = / 9007199254740992
  /\ 2 * eta64 <= u64 * B /\ B <= top.
Proof.
  pose proof (bpow_gt_0 radix2 (-900)) as P9. split; [lra|]. split; [reflexivity|]. split; [reflexivity|]. split; [apply u64_val|]. split.
  - apply Rle_trans with (u64 * bpow radix2 (-900)).
    + unfold eta64, u64. replace (/ 2 * bpow radix2 (-52) * bpow radix2 (-900)) with (/ 2 * bpow radix2 (-952)) by (rewrite Rmult_assoc, <- bpow_plus; reflexivity).
      assert (bpow radix2 (-1073) <= bpow radix2 (-952)) by (apply bpow_le; lia).
      replace (bpow radix2 (-1073)) with (2 * bpow radix2 (-1074)) in H by (change 2 with (bpow radix2 1); rewrite <- bpow_plus; reflexivity). lra.
    + apply Rmult_le_compat_l; [rewrite u64_val; lra|lra].
  - pose proof pow_top. assert (bpow radix2 900 <= bpow radix2 1023) by (apply bpow_le; lia). lra.
Qed.
(** Sums and differences of times are exact up to 2^-52 B. *)
Lemma near : forall x, Rabs x <= B -> Rabs (b64 x - x) <= 2 * (u64 * B).
Proof.
  intros x H. destruct consts as (C0 & _ & _ & _ & C4 & _). pose proof (b64_near x B H). pose proof eta64_pos. lra.
Qed.
Lemma sub_gap : forall x y, fin x = true -> fin y = true -> 0 <= f2r x -> f2r x <= f2r y -> f2r y <= B ->
  le64 (c_min c) (fsub y x) -> f2r x + rgap <= f2r y.
Proof.
  intros x y Fx Fy X0 XY YB H. destruct consts as (C0 & C1 & C2 & C3 & C4 & C5).
  assert (A : Rabs (f2r y - f2r x) <= B) by (apply Rabs_le; lra).
  destruct (fsub_ok y x Fy Fx) as (F & E); [lra|]. apply le64_inv in H. rewrite !key_fin, E in H by auto.
  pose proof (near _ A) as N. apply Rabs_le_inv in N. unfold rgap. rewrite C2. rewrite C3 in N. lra.
Qed.
Lemma add_gap : forall x, fin x = true -> 0 <= f2r x -> f2r x + f2r (c_nom c) <= B ->
  fin (fadd x (c_nom c)) = true /\ f2r x + rgap <= f2r (fadd x (c_nom c)) /\ Rabs (f2r (fadd x (c_nom c)) - (f2r x + f2r (c_nom c))) <= bpow radix2 (-52) * B.
Proof.
  intros x Fx X0 XB. destruct consts as (C0 & C1 & C2 & C3 & C4 & C5).
  assert (M : 0 <= f2r (c_min c)) by (apply Rle_trans with (2 := Hg); apply Rmult_le_pos; [apply bpow_ge_0|lra]).
  assert (A : Rabs (f2r x + f2r (c_nom c)) <= B) by (apply Rabs_le; lra).
  destruct (fadd_ok x (c_nom c) Fx Fn) as (F & E); [lra|]. split; auto. rewrite E.
  pose proof (near _ A) as N. change (bpow radix2 (-52)) with (/ 4503599627370496). split.
  - apply Rabs_le_inv in N. unfold rgap. rewrite C2. rewrite C3 in N. lra.
  - rewrite C3 in N. lra.
Qed.
Lemma gap_pos : 0 < rgap.
Proof. destruct consts as (C0 & C1 & C2 & _). unfold rgap. rewrite C1 in Hg. rewrite C2. lra. Qed.

Lemma nom_lt : f2r (c_nom c) > 0.
Proof. destruct consts as (C0 & C1 & _). rewrite C1 in Hg. lra. Qed.
Definition within (x : P * f64) : Prop := fin (snd x) = true /\ 0 <= f2r (snd x) /\ f2r (snd x) <= B.
Lemma search_chain : forall (a : list (P * f64)) sw prev, fin (snd prev) = true -> 0 <= f2r (snd prev) -> f2r (snd prev) <= f2r (c_end c) ->
  consecutive (follows c) (snd prev) (map snd a) ->
  chain (paced (f2r (c_init c)) rgap) sw (rt prev) (map rt a) /\ fin (snd (last a prev)) = true /\ 0 <= f2r (snd (last a prev)) /\
  f2r (snd (last a prev)) <= f2r (c_end c) /\ List.Forall within a.
Proof.
  pose proof nom_lt as NL. induction a as [|y a IH]; intros sw prev Fp P0 PE H; [simpl; auto|]. destruct H as ((F1 & F2 & F3 & F4) & H).
  assert (Ny : number (snd y)) by (destruct (lt64_number _ _ F1); auto).
  apply lt64_inv in F1. apply lt64_inv in F2. apply le64_inv in F3.
  assert (Fy : fin (snd y) = true) by (apply key_number_fin with (c_init c) (c_end c); auto; lra).
  rewrite !key_fin in * by auto.
  destruct (IH (negb sw) y Fy) as (A1 & A2 & A3 & A4 & A5); auto; try lra.
  rewrite <- (last_cons _ a y prev). split; [|repeat split; auto].
  - split; auto. split; [|exact F2]. simpl. apply sub_gap; auto; lra.
  - apply Forall_cons; auto. split; auto. split; lra.
Qed.
Lemma terminal_chain : forall (b : list (P * f64)) sw prev, fin (snd prev) = true -> 0 <= f2r (snd prev) -> f2r (snd prev) <= f2r (c_end c) ->
  terminal_at c (snd prev) (map snd b) ->
  chain (paced (f2r (c_init c)) rgap) sw (rt prev) (map rt b) /\ List.Forall within b.
Proof.
  intros b sw prev Fp P0 PE H. pose proof nom_lt as NL. pose proof gap_pos as GP. destruct consts as (C0 & C1 & C2 & _).
  destruct (add_gap (c_init c) Fi Hi) as (A1 & A2 & A3); [lra|]. destruct (add_gap (snd prev) Fp P0) as (B1 & B2 & B3); [lra|].
  apply Rabs_le_inv in A3. apply Rabs_le_inv in B3. unfold terminal_at in H. cbv zeta in H.
  change (bpow radix2 (-52)) with (/ 4503599627370496) in *.
  set (t := if Bltb (fadd (c_init c) (c_nom c)) (fadd (snd prev) (c_nom c)) then fadd (snd prev) (c_nom c) else fadd (c_init c) (c_nom c)) in *.
  assert (T : fin t = true /\ f2r (snd prev) + rgap <= f2r t /\ f2r (c_init c) < f2r t /\ f2r t <= f2r (c_end c) + f2r (c_nom c) + / 4503599627370496 * B).
  { unfold t. rewrite blt_ok by auto. rcases; repeat split; auto; lra. }
  destruct T as (T1 & T2 & T3 & T4). rewrite C1 in Hg. clearbody t.
  destruct (add_gap t T1) as (D1 & D2 & D3); [lra|lra|]. apply Rabs_le_inv in D3. change (bpow radix2 (-52)) with (/ 4503599627370496) in D3.
  destruct H as [H|[H|H]].
  - destruct b; [|discriminate]. simpl. auto.
  - destruct b as [|x [|? ?]]; try discriminate. injection H as E. split.
    + simpl. repeat split; auto; unfold rt; simpl; rewrite E; auto.
    + apply Forall_cons; auto. unfold within. rewrite E. repeat split; auto; lra.
  - destruct b as [|x [|y [|? ?]]]; try discriminate. injection H as E1 E2. split.
    + simpl. repeat split; auto; unfold rt; simpl; rewrite ?E1, ?E2; auto; lra.
    + apply Forall_cons; [|apply Forall_cons; auto]; unfold within; rewrite ?E1, ?E2; repeat split; auto; lra.
Qed.
Lemma chain_app : forall Q (a b : list (P * f64)) sw prev, chain Q sw (rt prev) (map rt a) -> (forall s, chain Q s (rt (last a prev)) (map rt b)) ->
  chain Q sw (rt prev) (map rt (a ++ b)).
Proof.
  intros Q a. induction a as [|x a IH]; intros b sw prev H1 H2; [apply H2|]. destruct H1 as (H0 & H1). split; auto.
  apply IH; auto. intros s. rewrite (last_cons _ a x prev). apply H2.
Qed.
Lemma deal_map : forall (l : list (P * f64)) sw, deal sw (map rt l) = (map rt (fst (dealt sw l)), map rt (snd (dealt sw l))).
Proof.
  induction l as [|x l IH]; intros sw; auto. simpl. rewrite IH. destruct (dealt (negb sw) l) as [u v]. destruct sw; reflexivity.
Qed.
Lemma real_times : forall n (l : list (P * f64)), map st_time (fp_steps (real_foot (nfoot_with n l))) = map st_time (map rt l).
Proof. intros n l. unfold real_foot, foot_at, map_nfoot, nfoot_with. cbn [fp_steps nf_steps]. rewrite !map_map. reflexivity. Qed.
Lemma dealt_within : forall (l : list (P * f64)) sw, List.Forall within l ->
  List.Forall within (fst (dealt sw l)) /\ List.Forall within (snd (dealt sw l)).
Proof.
  intros l. induction l as [|x l IH]; intros sw H; [simpl; auto|]. inversion H; subst. rewrite dealt_cons. destruct (IH (negb sw)); auto.
  destruct sw; simpl; auto.
Qed.

Lemma planned_walk : forall lead (x y : P * f64) (sw : bool) (a b left' right' : list (P * f64)) prev nL nR,
  lead <= 0 \/ f2r (c_init c) + lead <= f2r (snd prev) + rgap -> prev = (if sw then y else x) -> fin (snd x) = true -> fin (snd y) = true -> 0 <= f2r (snd x) -> 0 <= f2r (snd y) ->
  f2r (snd x) <= f2r (c_init c) -> f2r (snd y) <= f2r (c_init c) ->
  consecutive (follows c) (snd prev) (map snd a) -> terminal_at c (snd (last a prev)) (map snd b) ->
  (a ++ b <> [] -> grown [x] [y] sw (a ++ b) left' right') -> (a ++ b = [] -> aligned [x] [y] left' right') ->
  walk (fp_steps (real_foot (nfoot_with nL left'))) (fp_steps (real_foot (nfoot_with nR right'))) (f2r (c_init c)) lead rgap
  /\ List.Forall within left' /\ List.Forall within right'.
Proof.
  intros lead x y sw a b left' right' prev nL nR HL EP Fx Fy X0 Y0 XI YI HA HT HG HS. pose proof gap_pos as GP. pose proof nom_lt as NL.
  assert (PP : fin (snd prev) = true /\ 0 <= f2r (snd prev) /\ f2r (snd prev) <= f2r (c_end c)) by (subst prev; destruct sw; repeat split; auto; lra).
  destruct PP as (P1 & P2 & P3).
  destruct (search_chain a sw prev P1 P2 P3 HA) as (A1 & A2 & A3 & A4 & A5).
  assert (WX : within x) by (repeat split; auto; lra). assert (WY : within y) by (repeat split; auto; lra).
  assert (BB : List.Forall within b) by (apply (terminal_chain b sw (last a prev)); auto).
  destruct (a ++ b) as [|z zs] eqn:EZ.
  - specialize (HS eq_refl). destruct HS as (L1 & L2 & _ & _ & u & v & u' & v' & U & V & U' & V' & E1 & E2).
    simpl in U, V. inversion U; subst u. inversion V; subst v.
    destruct left' as [|l0 [|? ?]]; try discriminate. destruct right' as [|r0 [|? ?]]; try discriminate. simpl in U', V'. inversion U'; subst u'. inversion V'; subst v'.
    assert (WL : within l0 /\ f2r (snd l0) <= f2r (c_init c)) by (unfold within; rewrite E1; destruct (Bltb (snd x) (snd y)); repeat split; auto; lra).
    assert (WR : within r0 /\ f2r (snd r0) <= f2r (c_init c)) by (unfold within; rewrite E2; destruct (Bltb (snd y) (snd x)); repeat split; auto; lra).
    split; [|split; apply Forall_cons; [apply WL|apply Forall_nil|apply WR|apply Forall_nil]].
    apply walk_times with (map rt [l0]) (map rt [r0]); [symmetry; apply real_times|symmetry; apply real_times|].
    apply (chain_walk (f2r (c_init c)) lead rgap [] true (rt l0) (rt r0)); simpl; auto; try apply WL; try apply WR. intros ? ?. discriminate.
  - rewrite <- EZ in *. assert (NE : a ++ b <> []) by (rewrite EZ; discriminate). destruct (HG NE) as (GL & GR).
    assert (W : List.Forall within (a ++ b)) by (apply Forall_app; split; auto). destruct (dealt_within (a ++ b) sw W) as (D1 & D2).
    split; [|rewrite GL, GR; split; apply Forall_app; auto].
    apply walk_times with (map rt left') (map rt right'); [symmetry; apply real_times|symmetry; apply real_times|].
    rewrite GL, GR, !map_app.
    pose proof (deal_map (a ++ b) sw) as DM.
    replace (map rt (fst (dealt sw (a ++ b)))) with (fst (deal sw (map rt (a ++ b)))) by (rewrite DM; reflexivity).
    replace (map rt (snd (dealt sw (a ++ b)))) with (snd (deal sw (map rt (a ++ b)))) by (rewrite DM; reflexivity).
    assert (CH : chain (paced (f2r (c_init c)) rgap) sw (rt prev) (map rt (a ++ b))).
    { apply chain_app; auto. intros s. apply terminal_chain; auto. }
    apply (chain_walk (f2r (c_init c)) lead rgap (map rt (a ++ b)) sw (rt x) (rt y)); auto.
    + rewrite EP in CH. destruct sw; exact CH.
    + rewrite EZ in *. intros w Hw. simpl in Hw. inversion Hw; subst w. destruct CH as ((C1 & C2) & _). cbn [rt st_time] in C1, C2 |- *. destruct HL; lra.
Qed.
End Walk.
