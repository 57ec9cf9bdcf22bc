(** Settings for arbitrary doubles: ranges, and agreement with the rounded and the exact models. *)
From Coq Require Import String Reals ZArith List Bool Lia Lra.
From Flocq Require Import Core IEEE754.BinarySingleNaN Plus_error.
From Verif Require Import Prelude Rounding FootPrint UnicycleFoot Ellipse Optimization PlannerSearch Planner Controllers
  PersonFollowing FeetTraj CoMHeight DCM GenPhases GenProofs2 RoundedGen RoundedGenSpec RoundedGenProofs2 RoundedGenProofs3
  Doubles DoublesGen DoublesSpec DoublesProofs.
Import ListNotations.
Open Scope R_scope.

Ltac updcbn := cbv [upd field_eq_dec field_rec field_rect sumbool_rec sumbool_rect].

(** ** Operations that cannot produce NaN *)
Lemma nonzero_finite : forall y : f64, fin y = true -> f2r y <> 0 -> exists s m e H, y = B754_finite s m e H.
Proof. intros [s|s| |s m e H] F N; try discriminate. - contradiction N; auto. - repeat eexists. Qed.
Lemma fmul_number : forall x y, number x -> fin y = true -> f2r y <> 0 -> number (fmul x y).
Proof.
  intros x y Hx Hy N. destruct (number_cases x Hx) as [F|Q].
  - pose proof (Bmult_correct 53 1024 prec64 emax64 mode_NE x y) as Q. fold (fmul x y) in Q.
    destruct (Rlt_bool _ _).
    + destruct Q as (_ & Q & _). apply fin_number. unfold fin in *. rewrite Q, F, Hy. auto.
    + apply not_fin in Q. destruct Q as (_ & ->). discriminate.
  - destruct (nonzero_finite y Hy N) as (s & m & e & H & ->). destruct Q as [-> | ->]; discriminate.
Qed.
Lemma fdiv_number : forall x y, number x -> fin y = true -> f2r y <> 0 -> number (fdiv x y).
Proof.
  intros x y Hx Hy N. destruct (number_cases x Hx) as [F|Q].
  - pose proof (Bdiv_correct 53 1024 prec64 emax64 mode_NE x y N) as Q. fold (fdiv x y) in Q.
    destruct (Rlt_bool _ _).
    + destruct Q as (_ & Q & _). apply fin_number. unfold fin in *. rewrite Q, F. auto.
    + apply not_fin in Q. destruct Q as (_ & ->). discriminate.
  - destruct (nonzero_finite y Hy N) as (s & m & e & H & ->). destruct Q as [-> | ->]; discriminate.
Qed.
Lemma fdiv_not_fin : forall x y, fin x = false -> fin y = true -> f2r y <> 0 -> fin (fdiv x y) = false.
Proof.
  intros x y Hx Hy N. destruct (nonzero_finite y Hy N) as (s & m & e & H & ->). destruct x; try discriminate; auto.
Qed.
Lemma fpi_ok : fin fpi = true /\ f2r fpi = 884279719003555 * bpow radix2 (-48).
Proof.
  destruct (fmake_ok 884279719003555 (-48)) as (A & B).
  - unfold F2R, Fnum, Fexp. rewrite Rabs_pos_eq by (apply Rmult_le_pos; [lra|apply bpow_ge_0]).
    apply Rle_trans with (bpow radix2 50 * bpow radix2 (-48)).
    + apply Rmult_le_compat_r; [apply bpow_ge_0|]. simpl. lra.
    + rewrite <- bpow_plus. eapply Rle_trans; [|apply pow_top]. apply bpow_le. lia.
  - split; auto. unfold fpi. rewrite B. apply b64_fix. apply is_b64_dyadic; lia.
Qed.
Lemma fpi_pos : 0 < f2r fpi.
Proof. rewrite (proj2 fpi_ok). apply Rmult_lt_0_compat; [lra|apply bpow_gt_0]. Qed.
Lemma c180_ok : fin (a_q ieee 180 1) = true /\ f2r (a_q ieee 180 1) = 180.
Proof. apply q1_ok. lia. Qed.
Lemma rad_number : forall d, number d -> number (rad ieee d).
Proof.
  intros d H. pose proof fpi_pos as H0. destruct c180_ok as (A & B). unfold rad. apply fdiv_number; [|exact A|rewrite B; lra].
  apply fmul_number; [auto|apply fpi_ok|apply Rgt_not_eq; exact H0].
Qed.

(** ** The switch share *)
Lemma one_more : forall x, is_b64 x -> 0 < x -> x <= top -> x <= b64 (1 + x) /\ Rabs (b64 (1 + x)) < bpow radix2 1024.
Proof.
  intros x Hx P H. assert (Q : x <= b64 (1 + x)) by (rewrite <- (b64_fix x Hx) at 1; apply (r_mono _ b64_rounding); lra).
  split; auto. rewrite Rabs_pos_eq by lra.
  apply Rle_lt_trans with (b64 (1 + top)); [apply (r_mono _ b64_rounding); lra|].
  pose proof (round_N_pt radix2 b64_exp (fun z => negb (Z.even z)) (1 + top)) as (_ & Q2).
  specialize (Q2 top top_b64). fold (b64 (1 + top)) in Q2.
  change (round radix2 b64_exp (Znearest (fun z : Z => negb (Z.even z))) (1 + top)) with (b64 (1 + top)) in Q2.
  replace (top - (1 + top)) with (- (1)) in Q2 by ring. rewrite Rabs_Ropp, Rabs_R1 in Q2.
  assert (b64 (1 + top) <= top + 2) by (apply Rabs_le_inv in Q2; lra).
  assert (8 <= bpow radix2 971) by (change 8 with (bpow radix2 3); apply bpow_le; lia). unfold top in *. lra.
Qed.
Lemma le_top : forall x : f64, f2r x <= top.
Proof.
  intros x. pose proof (abs_B2R_le_emax_minus_prec 53 1024 prec64 x) as H. change (1024 - 53)%Z with 971%Z in H.
  apply Rabs_le_inv in H. unfold top, f2r. lra.
Qed.
Lemma share_ok : forall r, fin r = true -> 0 < f2r r ->
  fin (fdiv r (fadd f1 r)) = true /\ f2r (fdiv r (fadd f1 r)) = b64 (f2r r / b64 (1 + f2r r)) /\ 0 <= f2r (fdiv r (fadd f1 r)) <= 1.
Proof.
  intros r F P. destruct f1_ok as (A & B). destruct (one_more (f2r r) (f2r_b64 r) P (le_top r)) as (O1 & O2).
  pose proof (Bplus_correct 53 1024 prec64 emax64 mode_NE f1 r A F) as Q. fold (fadd f1 r) in Q.
  rewrite <- !b64_eq in Q. change (B2R r) with (f2r r) in Q. change (B2R f1) with (f2r f1) in Q. rewrite B in Q.
  rewrite Rlt_bool_true in Q by auto. destruct Q as (Q1 & Q2 & _). change (f2r (fadd f1 r) = b64 (1 + f2r r)) in Q1.
  assert (W : 0 <= f2r r / f2r (fadd f1 r) <= 1).
  { rewrite Q1. split; [apply div_nonneg; lra|]. apply (Rmult_le_reg_r (b64 (1 + f2r r))); [lra|]. field_simplify; lra. }
  destruct (fdiv_ok r (fadd f1 r)) as (D1 & D2); auto; [lra| |].
  - rewrite Rabs_pos_eq by lra. apply Rle_trans with (bpow radix2 1023); [|apply pow_top]. apply Rle_trans with 1; [lra|]. change 1 with (bpow radix2 0). apply bpow_le. lia.
  - rewrite Q1 in D2. repeat split; auto; rewrite D2; rewrite Q1 in W.
    + apply (rnd_nonneg _ b64_rounding). lra.
    + apply (rnd_le _ b64_rounding); [lra|apply (rnd_1 _ b64_rounding)].
Qed.

(** ** Ranges *)
Lemma num0 : number fzero. Proof. discriminate. Qed.
Lemma num1 : number f1. Proof. apply fin_number, f1_ok. Qed.
Lemma t_nonneg : forall x, number x -> Bltb x fzero = false -> le64 fzero x.
Proof. intros x N H. rewrite blt_key in H by (auto using num0). apply le64_key; auto using num0. rcasesh H; auto; discriminate. Qed.
Lemma t_pos : forall x, number x -> Bleb x fzero = false -> lt64 fzero x.
Proof. intros x N H. rewrite ble_key in H by (auto using num0). apply lt64_key; auto using num0. rcasesh H; auto; discriminate. Qed.
Lemma t_ord : forall x y, number x -> number y -> Bltb y x = false -> le64 x y.
Proof. intros x y N M H. rewrite blt_key in H by auto. apply le64_key; auto. rcasesh H; auto; discriminate. Qed.
Lemma t_ordl : forall x y, number x -> number y -> Bleb y x = false -> lt64 x y.
Proof. intros x y N M H. rewrite ble_key in H by auto. apply lt64_key; auto. rcasesh H; auto; discriminate. Qed.
Lemma abs_number : forall x : f64, number x -> number (Babs x).
Proof. intros [s|s| |s m e H] N; try discriminate. contradiction N; auto. Qed.
Lemma abs_pos : forall d : f64, number d -> Beqb d fzero = false -> lt64 fzero (Babs d).
Proof.
  intros d N H. apply lt64_key; auto using num0, abs_number. rewrite beq_key in H by auto using num0. rewrite key_0 in *.
  pose proof inf_pos. rcasesh H; try discriminate. destruct (number_cases d N) as [F|[-> | ->]].
  - assert (F' : fin (Babs d) = true) by (unfold fin; rewrite is_finite_Babs; exact F). rewrite (key_fin _ F').
    rewrite (key_fin _ F) in *. unfold f2r in *. rewrite B2R_Babs. apply Rabs_pos_lt; auto.
  - simpl. lra.
  - simpl. lra.
Qed.

Lemma number_nan : forall x : f64, is_nan x = false -> number x.
Proof. intros x H ->. discriminate. Qed.
Lemma not_lt64 : forall x y, Bltb x y = false -> ~ lt64 x y.
Proof. intros x y H Q. unfold lt64 in Q. congruence. Qed.
Ltac vmtrue := match goal with |- _ = _ => vm_compute; reflexivity end.
Lemma valid_init : valid (initv ieee).
Proof.
  constructor.
  all: repeat match goal with |- _ /\ _ => split end.
  all: match goal with
       | |- number _ => apply number_nan
       | |- ?x = fm1 \/ _ => left; apply same_f64
       | |- le64 _ _ => unfold le64
       | |- lt64 _ _ => unfold lt64
       | |- _ => idtac
       end.
  all: vmtrue.
Qed.

Ltac ifs H :=
  repeat match type of H with context [if ?b then _ else _] => let E := fresh "E" in destruct b eqn:E end.
Ltac numarg :=
  match goal with H : forall x, _ -> number x |- number ?y => apply H; solve [simpl; auto] end.
Ltac rangetac :=
  first [ assumption | numarg
        | apply t_nonneg; [numarg|assumption] | apply t_pos; [numarg|assumption]
        | apply t_ord; [first [apply num1|numarg]|first [apply num1|numarg]|assumption]
        | apply t_ordl; [first [apply num1|numarg]|first [apply num1|numarg]|assumption]
        | apply rad_number; numarg ].
Opaque fadd fsub fmul fdiv fmake f1 fm1 fpi rad le64 lt64 number.
Lemma valid_step : forall c s, valid s -> tame c -> valid (fst (setv ieee c s)).
Proof.
  intros c s V (N & T). pose proof V as V0. destruct V.
  destruct c; cbn [setv]; unfold below0, atmost0, above1, over; rewrite ?c0_zero, ?c1_one; cbn [a_lt a_le a_eq ieee];
  repeat match goal with |- context [if ?b then _ else _] => let E := fresh "E" in destruct b eqn:E end;
  repeat match goal with H : _ || _ = false |- _ => apply orb_false_iff in H; destruct H end;
  cbn [fst]; try exact V0; constructor; updcbn; try assumption; cbn [In args] in N;
  repeat match goal with H : _ /\ _ |- _ => destruct H end;
  try (repeat split; rangetac).
  - (* share *) assert (Nr : number r) by numarg. assert (P : lt64 fzero r) by (apply t_pos; auto). apply lt64_inv in P. rewrite key_0 in P.
    assert (F : fin r = true).
    { destruct (number_cases r Nr) as [F|[Q|Q]]; [exact F|contradiction|]. subst r. simpl in P. pose proof inf_pos. lra. }
    rewrite key_fin in P by auto. destruct (share_ok r F P) as (S1 & S2 & S3). cbn [a_div a_add ieee].
    split; apply le64_key; auto using num0, num1, fin_number; rewrite ?key_0, ?key_1, key_fin by auto; lra.
  - (* height *) right. rangetac.
  - (* CoM *) right. split; [rangetac|]. apply not_lt64. assumption.
  - (* saturations *) split; right; rangetac.
  - (* integration step *) split; [assumption|]. apply abs_pos; [numarg|assumption].
  - split; [rangetac|]. apply abs_pos; [numarg|assumption].
  - (* backward length *) repeat split; try rangetac. apply t_nonneg; assumption.
Qed.
Lemma valid_history : forall l, List.Forall tame l -> valid (settings ieee l).
Proof.
  intros l H. unfold settings. generalize valid_init. generalize (initv ieee).
  induction H; simpl; auto. intros s V. apply IHForall, valid_step; auto.
Qed.

(** ** NaN is accepted everywhere *)
Definition nan_call (q : field) : setter f64 :=
  match q with
  | q_share => sRatio fnan | q_terminal => sTerminal fnan | q_maxStep | q_nomStep => sPause fnan fnan
  | q_mergeB | q_mergeE => sMerge fnan fnan
  | q_height => sHeight fnan | q_pitch => sPitch fnan | q_apex => sApex fnan | q_landing => sLanding fnan
  | q_com | q_comDelta => sCom fnan fnan
  | q_omega => sOmega fnan | q_alpha => sAlpha fnan | q_still => sStill fnan | q_last => sLast fnan
  | q_satLin | q_satAng => sSat fnan fnan | q_turn => sTurn fnan | q_back => sBack fnan | q_side => sSide fnan
  | q_gain => sGain fnan | q_distX | q_distY => sDist fnan fnan | q_cons => sCons fnan
  | q_linFac | q_angFac => sFactors fnan fnan | q_intStep | q_navStep => sIntStep fnan
  | q_maxLen => sMaxLen fnan | q_maxBack => sMaxLen fnan | q_maxAngle => sMaxAngle fnan
  | q_posW | q_timeW => sWeights fnan fnan | q_minT | q_maxT | q_nomT => sTimings fnan fnan fnan
  | q_period => sPeriod fnan | q_minAngle => sMinAngle fnan | q_minLen => sMinLen fnan
  | q_minWidth | q_nomWidth => sWidth fnan fnan | q_leftYaw => sLeftYaw fnan | q_rightYaw => sRightYaw fnan
  end.
Lemma nan_accepted : forall q s, snd (setv ieee (nan_call q) s) = true /\ fst (setv ieee (nan_call q) s) q = fnan.
Proof. intros q s. destruct q; split; vm_compute; reflexivity. Qed.
