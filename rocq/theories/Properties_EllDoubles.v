(** C107: the ellipse of the free space in doubles. *)
From Coq Require Import String Reals ZArith List Bool Lia Lra.
From Flocq Require Import Core IEEE754.BinarySingleNaN.
From Verif Require Import Prelude FootPrint Ellipse RoundedGen EvalTac Doubles DoublesSpec DoublesProofs CtrlDoubles NavDoublesSpec TimedPlan TimedPlanSpec
  StepDoubles StepDoublesSpec StepDoublesProofs StepDoublesProofs5 Properties_StepDoubles EllDoubles EllDoublesSpec EllDoublesProofs EllDoublesProofs2.
Import ListNotations.
Open Scope R_scope.

(** The instance with exact reals is the model of FreeSpaceEllipse used by C15 to C21, for objects set by semi-axes. *)
Theorem C107_exact_model : forall l,
  z_run reals exact_maths l = exact_ell (fold_left exact_call l ell_clear) /\
  forall p, k_inside reals exact_maths (z_run reals exact_maths l) (vx p, vy p) = ell_inside (fold_left exact_call l ell_clear) p.
Proof.
  intros l. assert (E : z_run reals exact_maths l = exact_ell (fold_left exact_call l ell_clear)).
  { unfold z_run. change (@None (dell R)) with (exact_ell ell_clear). generalize ell_clear as e. induction l as [|k l IH]; intros e; [reflexivity|]. cbn [fold_left]. rewrite <- IH. f_equal. clear IH.
    destruct k as [a b th cx cy|]; [|reflexivity]. unfold exact_call, z_call, ell_set5. assert (Q : a_q reals 1 10000000000 = em10) by (unfold em10; cbn; field). rewrite Q. cbn [a_lt reals].
    destruct (Rltb a em10 || Rltb b em10); [reflexivity|]. cbn [fst]. unfold exact_ell, z_inverse, z_image. cbn [e_set e_Ci e_d vx vy a_mul a_add a_sub a_div reals x_cos x_sin x_opp exact_maths].
    assert (Z : c0 reals = 0) by (cbn; field). assert (O : c1 reals = 1) by (cbn; field). rewrite Z, O. unfold minv, mdet. cbn [m00 m01 m10 m11]. unfold Rdiv. rewrite !Rmult_1_l, !Rmult_0_r, !Rplus_0_r, !Rplus_0_l, !(Rmult_comm (sin th * a) (- sin th * b)). reflexivity. }
  split; [exact E|]. intros p. rewrite E. unfold ell_inside, exact_ell. destruct (e_set (fold_left exact_call l ell_clear)); [|reflexivity]. cbn [negb]. unfold k_inside, ell_gen, mapply, vnorm, vsub, g_sub. cbn.
  replace (1 / 1) with 1 by field. unfold pow. rewrite ?Rmult_1_r. reflexivity.
Qed.
Print Assumptions C107_exact_model.

Lemma run_in_force : forall M l, z_run ieee M l = match in_force l with Some (ZSet a b th cx cy) => Some (z_inverse ieee M (z_image ieee M a b th) (cx, cy)) | _ => None end.
Proof.
  intros M l. unfold z_run. assert (G : forall e, fold_left (fun e k => fst (z_call ieee M e k)) l e = match in_force l with Some (ZSet a b th cx cy) => Some (z_inverse ieee M (z_image ieee M a b th) (cx, cy)) | Some ZClear => None | None => e end).
  { induction l as [|k l IH]; intros e; [reflexivity|]. cbn [fold_left in_force]. rewrite IH. destruct (in_force l) as [x|]; [reflexivity|]. destruct k as [a b th cx cy|]; [|reflexivity]. cbn [z_call a_lt ieee]. destruct (Bltb a _ || Bltb b _); reflexivity. }
  rewrite G. destruct (in_force l) as [[]|]; reflexivity.
Qed.

(** C107: after any history of calls the last accepted one decides. Without an ellipse everything is inside. A point found inside
    is finite and inside the exact ellipse up to the border; a point found outside is outside up to the border. *)
Theorem C107_inside : forall sq cosf sinf at2 l p, let M := ieee_maths sq cosf sinf at2 in
  match in_force l with
  | Some (ZSet a b th cx cy) => close_trig cosf sinf -> axis64 a -> axis64 b -> fin th = true ->
      (k_inside ieee M (z_run ieee M l) p = true ->
         (fin (fst p) = true /\ fin (snd p) = true /\ fin cx = true /\ fin cy = true) /\ level64 a b th (cx, cy) p <= 1 + border64 a b (cx, cy) p)
      /\ (coord64 cx -> coord64 cy -> coord64 (fst p) -> coord64 (snd p) -> k_inside ieee M (z_run ieee M l) p = false ->
         1 - border64 a b (cx, cy) p <= level64 a b th (cx, cy) p)
  | _ => k_inside ieee M (z_run ieee M l) p = true
  end.
Proof.
  intros sq cosf sinf at2 l p M. rewrite run_in_force. destruct (in_force l) as [[a b th cx cy|]|]; try reflexivity. intros trig Ha Hb Ft. split.
  - exact (inside_level sq cosf sinf at2 trig a b th cx cy Ha Hb Ft p).
  - exact (outside_level sq cosf sinf at2 trig a b th cx cy Ha Hb Ft p).
Qed.
Print Assumptions C107_inside.

(** The steps of a plan on the trajectory are inside the ellipse up to the border, as is the first of two steps at the end. *)
Definition in_free (a b th cx cy : f64) (x : dpose f64) : Prop :=
  fin (d_x x) = true /\ fin (d_y x) = true /\ level64 a b th (cx, cy) (spot x) <= 1 + border64 a b (cx, cy) (spot x).
Theorem C107_plan : forall sq cosf sinf at2 S (c : tcfg f64) (back : bool) l a b th cx cy sol first checks integ point lateral n left right left' right' sw' sl,
  let M := ieee_maths sq cosf sinf at2 in let o := step_geo ieee M S (prob_of S back (z_run ieee M l)) sol first (c_end c) checks integ point lateral in
  close_trig cosf sinf -> in_force l = Some (ZSet a b th cx cy) -> axis64 a -> axis64 b -> fin th = true ->
  t_plan ieee c o n left right = TDone left' right' sw' sl ->
  exists l r (sw : bool) prev new last l1 r1 l2 r2,
  begun (c_init c) (o_first o) left right l r
  /\ chained (fun sw l r prev x => (fst x = g_pose ieee M S sw (sol (snd x)) /\ in_free a b th cx cy (fst x)) \/ paralleled c o sw l r prev x) sw l r prev new l1 r1
  /\ terminated c o (turn sw new) l1 r1 (List.last new prev) last l2 r2
  /\ (forall x y, last = [x; y] -> in_free a b th cx cy (fst x))
  /\ (new ++ last <> [] -> left' = l2 /\ right' = r2).
Proof.
  intros sq cosf sinf at2 S c back l a b th cx cy sol first checks integ point lateral n left right left' right' sw' sl M o trig IF Ha Hb Ft H.
  destruct (C105_every_step_examined _ c o _ _ _ _ _ _ _ H) as (l0 & r0 & sw & prev & nw & last & l1 & r1 & l2 & r2 & A1 & A2 & A3 & A4 & _ & _ & A6).
  assert (K : forall sw x u ang dt, k_ok ieee M (prob_of S back (z_run ieee M l)) (g_point ieee M S sw x u ang dt) = true -> in_free a b th cx cy (g_pose ieee M S sw u)).
  { intros sw0 x u ang dt Q. unfold k_ok in Q. apply andb_prop in Q. destruct Q as (Q & _). apply andb_prop in Q. destruct Q as (_ & Q).
    assert (Q' : k_inside ieee M (z_run ieee M l) (spot (g_pose ieee M S sw0 u)) = true) by (unfold g_pose, spot; cbv zeta; cbn [d_x d_y]; rewrite <- surjective_pairing; exact Q).
    pose proof (C107_inside sq cosf sinf at2 l (spot (g_pose ieee M S sw0 u))) as C. cbv zeta in C. rewrite IF in C. destruct (C trig Ha Hb Ft) as (C1 & _). destruct (C1 Q') as ((F1 & F2 & _) & L). repeat split; assumption. }
  exists l0, r0, sw, prev, nw, last, l1, r1, l2, r2. split; [exact A1|]. split; [|split; [exact A4|split; [|exact A6]]].
  - clear - A3 K. revert sw l0 r0 prev A3. induction nw as [|x nw IH]; intros sw l0 r0 prev; cbn [chained]; [auto|]. intros (Q & T). split; [|apply IH; exact T]. destruct Q as [Q|Q]; [left|right; exact Q].
    destruct Q as (dt & pause & cost & C1 & C2 & _). cbn [step_geo o o_pose] in C2. injection C2 as C2. rewrite <- C2. split; [reflexivity|]. cbn [step_geo o o_cand] in C1. destruct (g_last _) as [y|] in C1; [|discriminate C1]. cbv zeta in C1.
    destruct (k_ok ieee M _ _) eqn:E in C1; [|discriminate C1]. eapply K. exact E.
  - intros x y ->. cbn [terminated] in A4. destruct A4 as (C1 & C2 & _). cbn [step_geo o o_pose] in C2. injection C2 as C2. rewrite <- C2. cbn [step_geo o o_term] in C1. destruct (g_last _) as [w|] in C1; [|discriminate C1]. cbv zeta in C1. injection C1 as C1.
    apply andb_prop in C1. destruct C1 as (C1 & _). apply andb_prop in C1. destruct C1 as (C1 & _). eapply K. exact C1.
Qed.
Print Assumptions C107_plan.

(** An ellipse of semi-axes 4 and 2 after a refused call: one point inside, one outside, and the walk of C105 inside it. *)
Definition ex_calls : list (zcall f64) := [ZSet (fmake 1 2) (fmake 1 1) fzero fzero fzero; ZSet fzero f1 fzero f1 f1].
Lemma small_axis : forall a, fin a = true -> Bltb a (a_q ieee 1 10000000000) = false -> Bleb a (fmake 1 100) = true -> axis64 a.
Proof.
  intros a F L U. repeat split; auto. rewrite ble_ok in U; [|exact F|vm_compute; reflexivity]. rcasesh U; [|discriminate]. destruct (fmake_ok 1 100) as (_ & V).
  - unfold F2R. cbn [Fnum Fexp]. rewrite Rmult_1_l, Rabs_pos_eq by apply bpow_ge_0. pose proof pow_top. pose proof (bpow_le radix2 100 1023 ltac:(lia)). lra.
  - rewrite V in Hc. unfold F2R in Hc. cbn [Fnum Fexp] in Hc. rewrite Rmult_1_l, DoublesProofs5.b64_pow in Hc by lia. exact Hc.
Qed.
Example C107_example : in_force ex_calls = Some (ZSet (fmake 1 2) (fmake 1 1) fzero fzero fzero) /\ close_trig near_cos near_sin /\ axis64 (fmake 1 2) /\ axis64 (fmake 1 1) /\ fin fzero = true
  /\ k_inside ieee ex_maths (z_run ieee ex_maths ex_calls) (fmake 7 (-1), fmake 1 (-1)) = true /\ k_inside ieee ex_maths (z_run ieee ex_maths ex_calls) (fmake 7 (-1), f1) = false
  /\ match t_plan ieee ex_cfg (step_geo ieee ex_maths ex_set (prob_of ex_set true (z_run ieee ex_maths ex_calls)) ex_sol (MkDP fzero fzero fzero) (c_end ex_cfg) true true true None) 100 [] [] with
     | TDone [_; x; y] [_; z] _ _ => Beqb (snd x) (fmake 9 (-1)) | _ => false end = true.
Proof.
  split; [reflexivity|]. split; [exact near_trig|]. split; [apply small_axis; vm_compute; reflexivity|]. split; [apply small_axis; vm_compute; reflexivity|]. repeat split; vm_compute; reflexivity.
Qed.

(** ** A semi-axis that is not a number *)
(** Finding: NaN is accepted as a semi-axis, and then no point is inside, so that no step is accepted. *)
Theorem C107_nan_refuted : forall sq cosf sinf at2 e b th cx cy p, let M := ieee_maths sq cosf sinf at2 in Bltb b (a_q ieee 1 10000000000) = false ->
  snd (z_call ieee M e (ZSet fnan b th cx cy)) = true /\ k_inside ieee M (fst (z_call ieee M e (ZSet fnan b th cx cy))) p = false.
Proof.
  intros sq cosf sinf at2 e b th cx cy p M H. cbn [z_call]. cbn [a_lt ieee]. change (Bltb fnan (a_q ieee 1 10000000000)) with false. rewrite H. cbn [orb fst snd]. split; [reflexivity|].
  assert (M1 : forall x, fmul x fnan = fnan) by (intros []; reflexivity). assert (M2 : forall x, fmul fnan x = fnan) by reflexivity. assert (A1 : forall x, fadd fnan x = fnan) by reflexivity.
  assert (S1 : forall x, fsub fnan x = fnan) by reflexivity. assert (D1 : forall x, fdiv x fnan = fnan) by (intros []; reflexivity).
  unfold z_image, z_inverse, k_inside. cbn [a_add a_mul a_sub a_div ieee z_00 z_01 z_10 z_11 z_d]. repeat (first [rewrite M1 | rewrite M2 | rewrite A1 | rewrite S1 | rewrite D1]). reflexivity.
Qed.
Print Assumptions C107_nan_refuted.
Example C107_nan_example : Bltb f1 (a_q ieee 1 10000000000) = false.
Proof. vm_compute. reflexivity. Qed.
