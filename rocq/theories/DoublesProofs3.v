(** Settings: agreement of the binary64, rounded and exact models. *)
From Coq Require Import String Reals ZArith List Bool Lia Lra.
From Flocq Require Import Core IEEE754.BinarySingleNaN Plus_error.
From Verif Require Import Prelude Rounding FootPrint UnicycleFoot Ellipse Optimization PlannerSearch Planner Controllers
  PersonFollowing FeetTraj CoMHeight DCM GenPhases GenProofs2 RoundedGen RoundedGenSpec RoundedGenProofs2 RoundedGenProofs3
  Doubles DoublesGen DoublesSpec DoublesProofs DoublesProofs2.
Import ListNotations.
Open Scope R_scope.

(** The arithmetic with rounding but without overflow. *)
Definition rn64 : arith R := rounded b64 (f2r fpi).

(** ** Exact models *)
Lemma new_prob : pl_prob pl_new = MkProb (Some (20 / 100)) None (Some (8 / 100)) (Some (deg2rad 45)) ell_clear 1 (5 / 2).
Proof.
  unfold pl_new. cbn [pl_prob]. unfold prob_setWeights, prob_setPosW, prob_setTimeW, prob_setMaxAngle, prob_setMinWidth, prob_setMaxLen.
  assert (0 < deg2rad 45) by (unfold deg2rad; pose proof PI_RGT_0; lra).
  rewrite !(proj2 (Rltb_false _ _)) by lra. reflexivity.
Qed.
Lemma init_exact : forall q, initv reals q = view new_objects q.
Proof.
  intros q. destruct q; cbn [view new_objects ob_gen ob_feet ob_com ob_dcm ob_base ob_pf ob_pl]; rewrite ?new_prob;
  simpl; unfold c0, c1, rad, deg2rad; simpl; try lra; field.
Qed.
Lemma c0_reals : c0 reals = 0.
Proof. unfold c0. simpl. lra. Qed.
Lemma c1_reals : c1 reals = 1.
Proof. unfold c1. simpl. lra. Qed.
Ltac qcase := split; [reflexivity|let q := fresh "q" in intros q; destruct q; reflexivity].
Ltac ifall := repeat match goal with |- context [if ?b then _ else _] => lazymatch b with
    | field_eq_dec _ _ => fail | _ => let E := fresh "E" in destruct b eqn:E; cbn [negb fst snd] end end.
Lemma setv_exact : forall c o,
  snd (setv reals c (view o)) = snd (exact_call c o) /\ forall q, fst (setv reals c (view o)) q = view (fst (exact_call c o)) q.
Proof.
  intros c [g f h d b k p]. destruct d as [om al st la fi ol orr ini].
  destruct c; unfold setv, exact_call, below0, atmost0, above1, over, rad; rewrite ?c0_reals, ?c1_reals;
  unfold with_gen, with_feet, with_com, with_dcm, with_base, with_pf, with_pl;
  cbn [a_lt a_le a_eq a_add a_div a_mul a_abs a_pi a_q reals ob_gen ob_feet ob_com ob_dcm ob_base ob_pf ob_pl].
  - unfold set_switchRatio; ifall; qcase.
  - unfold set_terminalSwitch; ifall; qcase.
  - unfold set_pauseConditions, Rgtb; ifall; qcase.
  - unfold set_mergeRatio, Rgtb; ifall; qcase.
  - unfold feet_call; ifall; qcase.
  - split; [reflexivity|]. intros q; destruct q; try reflexivity. change (d * PI / (180 / 1) = d * PI / 180). field.
  - unfold feet_call, Rgeb; ifall; qcase.
  - qcase.
  - unfold h_set; ifall; qcase.
  - unfold dc_call; ifall; qcase.
  - unfold dc_call, Rgtb; ifall; qcase.
  - unfold dc_call, Rgtb; ifall; qcase.
  - unfold dc_call, Rgtb; ifall; qcase.
  - unfold base_call, base_setSat; ifall; qcase.
  - unfold base_call, base_setTurn; ifall; qcase.
  - unfold base_call, base_setBack; ifall; qcase.
  - unfold base_call, base_setSide; ifall; qcase.
  - unfold pf_setGain; ifall; qcase.
  - unfold pf_setDist; ifall; qcase.
  - unfold pf_setCons; ifall; qcase.
  - unfold pl_call, pl_setFactors, Rgtb; ifall; qcase.
  - unfold pl_call, pl_setIntStep; ifall; qcase.
  - unfold pl_call, pl_setMaxLen1, prob_setMaxLen, prob_setMaxBack; ifall; qcase.
  - unfold pl_call, pl_setMaxLen2, prob_setMaxLen, prob_setMaxBack; ifall; qcase.
  - unfold pl_call, pl_setMaxAngle, prob_setMaxAngle; ifall; qcase.
  - unfold pl_call, pl_setWeights, prob_setWeights, prob_setPosW, prob_setTimeW; ifall; qcase.
  - unfold pl_call, pl_setTimings, Rgtb; ifall; qcase.
  - unfold pl_call, pl_setPeriod; ifall; qcase.
  - unfold pl_call, pl_setMinAngle; ifall; qcase.
  - unfold pl_call, pl_setMinLen; ifall; qcase.
  - unfold pl_call, pl_setWidth, prob_setMinWidth; ifall; qcase.
  - qcase.
  - qcase.
Qed.

(** ** Rounded and exact: the same calls are accepted *)
Lemma c0_rn : c0 rn64 = 0.
Proof. unfold c0. simpl. replace (0 / 1) with 0 by field. apply (rnd_0 _ b64_rounding). Qed.
Lemma c1_rn : c1 rn64 = 1.
Proof. unfold c1. simpl. replace (1 / 1) with 1 by field. apply (rnd_1 _ b64_rounding). Qed.
#[global] Instance exp64_not_FTZ : Exp_not_FTZ b64_exp.
Proof. apply (@monotone_exp_not_FTZ b64_exp valid64 (FLT_exp_monotone (-1074) 53)). Qed.
Lemma b64_sum_sign : forall x y, is_b64 x -> is_b64 y -> Rltb (b64 (x + y)) 0 = Rltb (x + y) 0.
Proof.
  intros x y Hx Hy. destruct (Rlt_le_dec (x + y) 0) as [L|L].
  - assert (N : b64 (x + y) <> 0).
    { unfold b64. apply (@round_plus_neq_0 radix2 b64_exp valid64 exp64_not_FTZ ZnearestE _ x y); auto. lra. }
    assert (b64 (x + y) <= 0) by (apply (rnd_le _ b64_rounding); [lra|apply (rnd_0 _ b64_rounding)]).
    rcases; auto; lra.
  - assert (0 <= b64 (x + y)) by (apply (rnd_nonneg _ b64_rounding); lra). rcases; auto; lra.
Qed.
Lemma mul_nonneg : forall x y, Rltb x 0 = false -> Rltb y 0 = false -> 0 <= x * y.
Proof. intros x y A B. apply Rltb_false in A. apply Rltb_false in B. apply Rmult_le_pos; auto. Qed.
Lemma accept_rn : forall c s s', (forall x, In x (args c) -> is_b64 x) -> snd (setv rn64 c s) = snd (setv reals c s').
Proof.
  intros c s s' H. destruct c; unfold setv, below0, atmost0, above1, over; rewrite ?c0_rn, ?c1_rn, ?c0_reals, ?c1_reals;
  cbn [a_lt a_le a_eq a_add a_mul reals rn64 rounded]; try (ifall; reflexivity).
  - (* CoM *) rewrite b64_sum_sign by (apply H; simpl; auto). ifall; reflexivity.
  - (* backward length *) destruct (Rltb m 0) eqn:E1; auto. destruct (Rltb l 0) eqn:E2; auto.
    pose proof (mul_nonneg _ _ E2 E1) as P. rewrite (proj2 (Rltb_false (l * m) 0)) by auto.
    rewrite (proj2 (Rltb_false (b64 (l * m)) 0)); auto. apply (rnd_nonneg _ b64_rounding); auto.
Qed.

(** ** Binary64 and rounded *)
Opaque fadd fsub fmul fdiv fmake f1 fm1 fpi.
Definition agrees (x : f64) (y : R) : Prop := fin x = true -> f2r x = y.
Lemma sign_neg : forall x : f64, Bsign x = true -> f2r x <= 0.
Proof.
  intros [s|s| |s m e H] E; simpl in E; subst; try (simpl; lra). unfold f2r, B2R. apply F2R_le_0. simpl. lia.
Qed.
Lemma sign_pos : forall x : f64, Bsign x = false -> 0 <= f2r x.
Proof.
  intros [s|s| |s m e H] E; simpl in E; subst; try (simpl; lra). unfold f2r, B2R. apply F2R_ge_0. simpl. lia.
Qed.
Lemma big_nonzero : forall x, Rlt_bool (Rabs (b64 x)) (bpow radix2 1024) = false -> b64 x <> 0.
Proof.
  intros x H E. rewrite E, Rabs_R0 in H. rewrite Rlt_bool_true in H; [discriminate|]. apply bpow_gt_0.
Qed.
Lemma below_sum : forall x y, fin x = true -> fin y = true -> Bltb (fadd x y) fzero = Rltb (b64 (f2r x + f2r y)) 0.
Proof.
  intros x y Hx Hy. pose proof (Bplus_correct 53 1024 prec64 emax64 mode_NE x y Hx Hy) as Q. change (Bplus mode_NE x y) with (fadd x y) in Q.
  rewrite <- !b64_eq in Q. change (B2R x) with (f2r x) in Q. change (B2R y) with (f2r y) in Q.
  destruct (Rlt_bool _ _) eqn:E.
  - destruct Q as (Q1 & Q2 & _). rewrite blt_ok by auto. unfold f2r at 1. rewrite Q1. reflexivity.
  - destruct Q as (Q & Sg). apply big_nonzero in E. apply not_fin in Q. destruct Q as (_ & ->). symmetry in Sg.
    destruct (Bsign x) eqn:B.
    + apply sign_neg in B. apply sign_neg in Sg.
      assert (b64 (f2r x + f2r y) <= 0) by (apply (rnd_le _ b64_rounding); [lra|apply (rnd_0 _ b64_rounding)]).
      rcases; auto; lra.
    + apply sign_pos in B. apply sign_pos in Sg.
      assert (0 <= b64 (f2r x + f2r y)) by (apply (rnd_nonneg _ b64_rounding); lra). rcases; auto; lra.
Qed.
Lemma below_prod : forall x y, fin x = true -> fin y = true -> 0 <= f2r x -> 0 <= f2r y -> Bltb (fmul x y) fzero = false.
Proof.
  intros x y Hx Hy Px Py. pose proof (Bmult_correct 53 1024 prec64 emax64 mode_NE x y) as Q. change (Bmult mode_NE x y) with (fmul x y) in Q.
  rewrite <- !b64_eq in Q. change (B2R x) with (f2r x) in Q. change (B2R y) with (f2r y) in Q.
  assert (P : 0 <= f2r x * f2r y) by (apply Rmult_le_pos; auto).
  destruct (Rlt_bool _ _) eqn:E.
  - destruct Q as (Q1 & Q2 & _). rewrite blt_ok; auto. 2: { unfold fin in *. rewrite Q2, Hx, Hy. auto. }
    unfold f2r at 1. rewrite Q1. apply Rltb_false. apply (rnd_nonneg _ b64_rounding); auto.
  - apply big_nonzero in E. apply not_fin in Q. destruct Q as (_ & ->).
    assert (N : f2r x * f2r y <> 0). { intros Z. apply E. rewrite Z. apply (rnd_0 _ b64_rounding). }
    assert (f2r x <> 0 /\ f2r y <> 0) as (Nx & Ny). { split; intros Z; apply N; rewrite Z; ring. }
    destruct (Bsign x) eqn:Bx; [apply sign_neg in Bx; lra|]. destruct (Bsign y) eqn:By; [apply sign_neg in By; lra|]. reflexivity.
Qed.
Lemma rad_agrees : forall d, agrees (rad ieee d) (rad rn64 (f2r d)).
Proof.
  intros d H. destruct c180_ok as (A & B). unfold rad in *. cbn [a_div a_mul a_pi ieee] in H |- *.
  set (c := a_q ieee 180 1) in *. assert (N : f2r c <> 0) by (rewrite B; lra).
  assert (F : fin (fmul d fpi) = true).
  { destruct (fin (fmul d fpi)) eqn:E; [reflexivity|]. rewrite (fdiv_not_fin _ _ E A N) in H. discriminate. }
  rewrite (fdiv_fin _ _ N H), B, (fmul_fin _ _ F). unfold rn64. cbn [a_div a_mul a_pi a_q rounded].
  replace (180 / 1) with 180 by field. do 2 f_equal. symmetry. apply b64_fix. apply (is_b64_int 180). lia.
Qed.
Lemma q_agrees : forall p q, (Z.abs p <= 2 ^ 53)%Z -> (0 < q <= 2 ^ 53)%Z -> agrees (a_q ieee p q) (a_q rn64 p q).
Proof. intros p q A B _. destruct (q_ok p q A B) as (_ & C). exact C. Qed.
Lemma q_rn : forall p q, (Z.abs p <= 2 ^ 53)%Z -> (0 < q <= 2 ^ 53)%Z -> f2r (a_q ieee p q) = a_q rn64 p q.
Proof. intros. apply q_ok; auto. Qed.
Lemma init_agrees : forall q, agrees (initv ieee q) (initv rn64 q).
Proof.
  intros q.
  assert (R1 : forall p, (Z.abs p <= 2 ^ 53)%Z -> agrees (rad ieee (a_q ieee p 1)) (rad rn64 (a_q rn64 p 1))).
  { intros p Hp. rewrite <- q_rn by lia. apply rad_agrees. }
  destruct q; unfold initv, c0, c1;
  lazymatch goal with
  | |- agrees (rad _ _) _ => apply R1; lia
  | |- agrees (a_q _ _ _) _ => apply q_agrees; lia
  | |- _ => idtac
  end.
  intros H. assert (N : f2r (a_q ieee 1 2) <> 0).
  { destruct (q_ok 1 2) as (_ & Q); try lia. rewrite Q. replace (b64 (1 / 2)) with (1 / 2) by (symmetry; apply (r_half _ b64_rounding)). lra. }
  pose proof (fdiv_fin _ _ N H) as Q. rewrite !q_rn in Q by lia. exact Q.
Qed.

Opaque rad.
Ltac argfin := match goal with H : forall x, _ -> fin x = true |- fin ?y = true => apply H; solve [simpl; auto] end.
Ltac finarg := first [argfin|apply f1_ok|reflexivity].
Ltac cmp1 :=
  match goal with
  | |- context [Bltb ?x ?y] => rewrite (blt_ok x y) by finarg
  | |- context [Bleb ?x ?y] => rewrite (ble_ok x y) by finarg
  | |- context [Beqb ?x ?y] => rewrite (beq_ok x y) by finarg
  end.
Ltac cmpall := repeat cmp1; rewrite ?(proj2 f1_ok); change (f2r fzero) with 0.
Lemma upd_agrees : forall s s' q v v', (forall q, agrees (s q) (s' q)) -> agrees v v' ->
  forall p, agrees (upd s q v p) (upd s' q v' p).
Proof. intros s s' q v v' H V p. unfold upd. destruct (field_eq_dec p q); auto. Qed.
Lemma agrees_f2r : forall x, agrees x (f2r x).
Proof. intros x _. reflexivity. Qed.
Ltac stagree := first [assumption | apply upd_agrees; [stagree|first [apply agrees_f2r|idtac]]].
Lemma step_agrees : forall c s s', finite_args c -> (forall q, agrees (s q) (s' q)) ->
  snd (setv ieee c s) = snd (setv rn64 (map_setter f2r c) s')
  /\ forall q, agrees (fst (setv ieee c s) q) (fst (setv rn64 (map_setter f2r c) s') q).
Proof.
  intros c s s' F I. unfold finite_args in F.
  destruct c; cbn [args In] in F; cbn [map_setter setv]; unfold below0, atmost0, above1, over; rewrite ?c0_zero, ?c1_one, ?c0_rn, ?c1_rn;
  cbn [a_lt a_le a_eq a_abs ieee]; cbn [a_lt a_le a_eq a_abs rn64 rounded]; cmpall;
  try (ifall; (split; [reflexivity|cbn [fst]; stagree])).
  - (* share *) apply Rleb_false in E. intros _. destruct (share_ok r) as (_ & Q & _); [argfin|exact E|]. exact Q.
  - (* pitch *) apply rad_agrees.
  - (* CoM *) change (a_add ieee h d) with (fadd h d). rewrite below_sum by argfin.
    change (a_add rn64 (f2r h) (f2r d)) with (b64 (f2r h + f2r d)). ifall; (split; [reflexivity|cbn [fst]; stagree]).
  - intros _. unfold f2r. apply B2R_Babs.
  - intros _. unfold f2r. apply B2R_Babs.
  - (* backward length *) destruct (Rltb (f2r m) 0) eqn:Em; [split; [reflexivity|exact I]|].
    destruct (Rltb (f2r l) 0) eqn:El; [split; [reflexivity|exact I]|].
    pose proof (mul_nonneg _ _ El Em) as P. apply Rltb_false in Em. apply Rltb_false in El.
    change (a_mul ieee l m) with (fmul l m). change (a_mul rn64 (f2r l) (f2r m)) with (b64 (f2r l * f2r m)).
    rewrite below_prod by first [argfin|assumption].
    rewrite (proj2 (Rltb_false (b64 (f2r l * f2r m)) 0)) by (apply (rnd_nonneg _ b64_rounding); auto).
    split; [reflexivity|]. cbn [fst]. stagree. intros Q. apply fmul_fin. exact Q.
Qed.
Lemma history_agrees : forall l, List.Forall finite_args l ->
  forall q, agrees (settings ieee l q) (settings rn64 (map (map_setter f2r) l) q).
Proof.
  intros l H. unfold settings.
  assert (Q : forall s s', (forall q, agrees (s q) (s' q)) ->
    forall q, agrees (fold_left (fun s c => fst (setv ieee c s)) l s q)
                     (fold_left (fun s c => fst (setv rn64 c s)) (map (map_setter f2r) l) s' q)).
  { induction H as [|c l Hc Hl IH]; intros s s' I; [exact I|]. cbn [map fold_left]. apply IH. apply step_agrees; auto. }
  apply Q. apply init_agrees.
Qed.
(** The generator's part of a history. *)
Definition gops (l : list (setter R)) : list gop :=
  flat_map (fun c => match c with
    | sRatio r => [GoSwitch r] | sTerminal t => [GoTerminal t] | sPause m n => [GoPause m n] | sMerge b e => [GoMerge b e]
    | _ => [] end) l.
Lemma gset_call : forall c s b, gset_of (fst (setv rn64 c s)) b = fold_left (gset_run_r b64) (gops [c]) (gset_of s b).
Proof.
  intros c s b. destruct c; unfold setv, below0, atmost0, above1, over; rewrite ?c0_rn, ?c1_rn; cbn [gops flat_map app fold_left gset_run_r gset_run];
  unfold set_switchRatio_r, set_terminalSwitch, set_pauseConditions, set_mergeRatio, Rgtb; cbn [a_lt a_le a_eq a_add a_div a_mul rn64 rounded]; ifall; reflexivity.
Qed.
Lemma gset_history : forall l b, gset_of (settings rn64 l) b = settings64 (gops l ++ [GoPauseActive b]).
Proof.
  intros l b. unfold settings64. rewrite fold_left_app. cbn [fold_left gset_run_r gset_run].
  assert (Q : forall s g, gset_of s b = set_pauseActive b g ->
    gset_of (fold_left (fun s c => fst (setv rn64 c s)) l s) b = set_pauseActive b (fold_left (gset_run_r b64) (gops l) g)).
  { induction l as [|c l IH]; intros s g E; [exact E|]. cbn [fold_left]. change (gops (c :: l)) with (gops ([c] ++ l)). unfold gops at 1.
    rewrite flat_map_app, fold_left_app. apply IH. rewrite gset_call, E.
    destruct c; cbn [gops flat_map app fold_left gset_run_r gset_run]; try reflexivity;
    unfold set_switchRatio_r, set_terminalSwitch, set_pauseConditions, set_mergeRatio; ifall; reflexivity. }
  apply Q. unfold gset_of, initv, gset_new, set_pauseActive, c1. cbn [a_q rn64 rounded g_switchPct g_endSwitch g_maxStep g_nomStep g_pause g_mrBegin g_mrEnd].
  replace (1 / 1) with 1 by field. replace (10 / 1) with (IZR 10) by field. replace (2 / 1) with 2 by field.
  rewrite (r_half _ b64_rounding), (rnd_1 _ b64_rounding), (rnd_2 _ b64_rounding), (b64_fix (IZR 10)) by (apply is_b64_int; lia). reflexivity.
Qed.
Lemma gops_b64 : forall l, List.Forall finite_args l -> List.Forall gop_b64 (gops (map (map_setter f2r) l)).
Proof.
  intros l H. unfold gops. induction H as [|c l Hc Hl IH]; [constructor|]. cbn [map flat_map]. apply Forall_app. split; auto.
  destruct c; cbn [map_setter]; repeat constructor; apply f2r_b64.
Qed.
