(** The search of computeNewSteps in binary64 arithmetic: progress, termination. *)
From Coq Require Import String Reals ZArith List Bool Lia Lra.
From Flocq Require Import Core IEEE754.BinarySingleNaN.
From Verif Require Import Prelude Rounding FootPrint GenPhases RoundedGen RoundedGenSpec RoundedGenProofs2 RoundedGenProofs3
  Doubles DoublesGen DoublesSpec DoublesProofs TimedPlan TimedPlanSpec.
Import ListNotations.
Open Scope R_scope.

(** Doubles are multiples of the smallest one. *)
Definition eta : R := bpow radix2 (-1074).
Lemma eta_pos : 0 < eta.
Proof. apply bpow_gt_0. Qed.
Lemma grid : forall x : f64, exists k : Z, f2r x = IZR k * eta.
Proof.
  intros x. pose proof (f2r_b64 x) as H. unfold is_b64 in H.
  pose proof (generic_format_FIX_FLT radix2 (-1074) 53 _ H) as Q.
  apply FIX_format_generic in Q. destruct Q as [[m e] E1 E2]. simpl in E2. subst e. exists m. exact E1.
Qed.
Lemma gap : forall x y : f64, f2r x < f2r y -> f2r x + eta <= f2r y.
Proof.
  intros x y H. destruct (grid x) as (a & A), (grid y) as (b & B). rewrite A, B in *. pose proof eta_pos.
  apply Rmult_lt_reg_r in H; auto. apply lt_IZR in H. replace (IZR a * eta + eta) with (IZR (a + 1) * eta) by (rewrite plus_IZR; ring).
  apply Rmult_le_compat_r; [lra|]. apply IZR_le. lia.
Qed.

(** Sums of doubles. *)
Lemma sign_neg : forall x : f64, Bsign x = true -> f2r x <= 0.
Proof.
  intros [s|s| |s m e H] E; simpl in *; try discriminate; try lra. subst s.
  unfold f2r. simpl. apply Rlt_le, F2R_lt_0. simpl. lia.
Qed.
Lemma fadd_up : forall x y, fin x = true -> number y -> 0 <= key y ->
  number (fadd x y) /\ key x <= key (fadd x y) /\ (fin (fadd x y) = true -> fin y = true /\ f2r (fadd x y) = b64 (f2r x + f2r y)).
Proof.
  intros x y Hx Ny Hy. pose proof inf_pos as IP. destruct (number_cases y Ny) as [Fy|[->| ->]].
  - pose proof (Bplus_correct 53 1024 prec64 emax64 mode_NE x y Hx Fy) as Q. fold (fadd x y) in Q.
    rewrite key_fin in Hy by auto. rewrite <- b64_eq in Q. change (B2R x) with (f2r x) in Q. change (B2R y) with (f2r y) in Q.
    destruct (Rlt_bool_spec (Rabs (b64 (f2r x + f2r y))) (bpow radix2 1024)) as [L|L].
    + destruct Q as (Q1 & Q2 & _). change (fin (fadd x y) = true) in Q2. change (f2r (fadd x y) = b64 (f2r x + f2r y)) in Q1.
      repeat split; auto.
      * apply fin_number; auto.
      * rewrite !key_fin, Q1 by auto. rewrite <- (f2r_fix x) at 1. apply (r_mono _ b64_rounding). lra.
    + destruct Q as (Q1 & Q2). apply not_fin in Q1. destruct Q1 as (Q0 & Q1). rewrite Q1 in *.
      destruct (Bsign x) eqn:Sx.
      * exfalso. symmetry in Q2. pose proof (sign_neg y Q2). assert (E : f2r y = 0) by lra. rewrite E, Rplus_0_r, f2r_fix in L.
        pose proof (f2r_lt x). lra.
      * repeat split; try discriminate. pose proof (fin_key x Hx). unfold key at 2. lra.
  - assert (E : fadd x finf = finf) by (destruct x; try discriminate; auto). rewrite E.
    repeat split; try discriminate. pose proof (fin_key x Hx). unfold key at 2. unfold finf. lra.
  - exfalso. unfold key in Hy. lra.
Qed.

(** The period is not lost. *)
Lemma ulp_small : forall x d, 0 <= x -> bpow radix2 (-52) * x <= d -> eta <= d -> ulp radix2 b64_exp x <= d.
Proof.
  intros x d H H1 H2. unfold b64_exp.
  destruct (Rle_lt_dec (bpow radix2 (-1074 + 53 - 1)) x) as [L|L].
  - pose proof (ulp_FLT_le radix2 (-1074) 53 x) as Q. rewrite Rabs_pos_eq in Q by auto.
    specialize (Q L). replace (1 - 53)%Z with (-52)%Z in Q by lia. lra.
  - rewrite ulp_FLT_small; [exact H2|reflexivity|]. rewrite Rabs_pos_eq by auto.
    apply Rlt_le_trans with (1 := L). apply bpow_le. lia.
Qed.
Lemma b64_advance : forall x d, is_b64 x -> 0 <= x -> bpow radix2 (-52) * x <= d -> eta <= d -> x < b64 (x + d).
Proof.
  intros x d Fx H H1 H2. pose proof eta_pos. pose proof (ulp_small x d H H1 H2) as U.
  assert (V : Valid_exp b64_exp) by (apply FLT_exp_valid; reflexivity).
  assert (P0 : 0 < ulp radix2 b64_exp x).
  { destruct (Req_dec x 0) as [->|Nx].
    - unfold b64_exp. rewrite ulp_FLT_0; [apply bpow_gt_0|reflexivity].
    - rewrite ulp_neq_0 by auto. apply bpow_gt_0. }
  assert (E : b64 (succ radix2 b64_exp x) = succ radix2 b64_exp x) by (apply b64_fix, generic_format_succ; auto).
  apply Rlt_le_trans with (succ radix2 b64_exp x).
  - rewrite succ_eq_pos by auto. lra.
  - rewrite <- E. apply (r_mono _ b64_rounding). rewrite succ_eq_pos by auto. lra.
Qed.
Lemma resolves_advances : forall dT lo hi : f64, fin dT = true -> fin hi = true -> 0 <= key lo -> resolves (f2r dT) (f2r hi) ->
  advances dT lo hi.
Proof.
  intros dT lo hi Fd Fh Hlo (D0 & D1) t Ft L1 L2. pose proof eta_pos as EP. pose proof inf_pos.
  apply le64_inv in L1. apply le64_inv in L2. rewrite (key_fin t Ft) in *. rewrite (key_fin hi Fh) in *.
  assert (G : eta <= f2r dT).
  { pose proof (gap fzero dT) as Q. change (f2r fzero) with 0 in Q. specialize (Q D0). lra. }
  destruct (fadd_up t dT) as (N1 & N2 & N3); auto. { apply fin_number; auto. } { rewrite key_fin by auto. lra. }
  apply lt64_key; auto. { apply fin_number; auto. }
  destruct (number_cases _ N1) as [F|[E|E]].
  - destruct (N3 F) as (_ & E). rewrite !key_fin, E by auto. pose proof (bpow_gt_0 radix2 (-52)).
    apply b64_advance; auto; try lra. { apply f2r_b64. }
    apply Rle_trans with (2 := D1). apply Rmult_le_compat_l; lra.
  - rewrite E. pose proof (fin_key t Ft). unfold key at 2. unfold finf. lra.
  - rewrite E in N2. pose proof (fin_key t Ft). unfold key at 2 in N2. lra.
Qed.

Lemma fsub_nan : forall x, fsub x fnan = fnan.
Proof. intros [s|s| |s m e H]; reflexivity. Qed.
Lemma blt_false : forall x y : f64, number x -> number y -> Bltb x y = false -> key y <= key x.
Proof. intros x y Hx Hy H. rewrite blt_key in H by auto. rcasesh H; [discriminate|lra]. Qed.
Lemma ble_false : forall x y : f64, number x -> number y -> Bleb x y = false -> key y < key x.
Proof. intros x y Hx Hy H. rewrite ble_key in H by auto. rcasesh H; [discriminate|lra]. Qed.
Lemma nan_or : forall x : f64, x = fnan \/ number x.
Proof. intros [s|s| |s m e H]; auto; right; discriminate. Qed.
Lemma not_neg : forall x : f64, Bltb x fzero = false -> x = fnan \/ (number x /\ 0 <= key x).
Proof.
  intros x H. destruct (nan_or x) as [->|N]; auto. right. split; auto. apply blt_false in H; auto. discriminate.
Qed.
Lemma key_number_fin : forall x a b : f64, number x -> fin a = true -> fin b = true -> key a <= key x -> key x <= key b -> fin x = true.
Proof.
  intros x a b N Fa Fb H1 H2. pose proof (fin_key a Fa). pose proof (fin_key b Fb).
  destruct (number_cases x N) as [F|[->| ->]]; auto; exfalso; [unfold key at 1 in H2; unfold finf in H2|unfold key at 2 in H1]; lra.
Qed.
Lemma last_opt_app : forall (X : Type) (l : list X) x, last_opt (l ++ [x]) = Some x.
Proof. intros X l x. induction l as [|y l IH]; auto. simpl. destruct (l ++ [x]) eqn:E; [destruct l; discriminate|]. exact IH. Qed.
Definition fm : f64 := a_q ieee (-1) 1.
Lemma fm_ok : number fm /\ key fm = -1.
Proof. destruct (q1_ok (-1)) as (A & B); [lia|]. fold fm in A, B. split; [apply fin_number; auto|]. rewrite key_fin by auto. exact B. Qed.
Opaque fadd fsub fmul fdiv fmake f1 fm1 fpi.

Section Search.
Variable P : Type.
Variable c : tcfg f64.
Variable o : geo f64 P.
Hypothesis Fi : fin (c_init c) = true.
Hypothesis Fe : fin (c_end c) = true.
Hypothesis Hi : 0 <= key (c_init c).
Hypothesis Hie : key (c_init c) < key (c_end c).
Hypothesis Hadv : advances (c_dT c) (c_init c) (c_end c).

(** A time at which a step may be placed after [prev]. *)
Definition placeable (prev t : f64) : Prop :=
  number prev /\ number t /\ key prev < key t /\ key (c_init c) < key t /\ key t <= key (c_end c) /\ le64 (c_min c) (fsub t prev).

Record inv (s : tst f64 P) : Prop := MkInv {
  i_t : number (t_t s); i_init : key (c_init c) <= key (t_t s);
  i_prev : last_opt (t_stance s) = Some (t_prev s);
  i_old : snd (t_prev s) = fnan \/ (number (snd (t_prev s)) /\ 0 <= key (snd (t_prev s)) /\ key (snd (t_prev s)) <= key (c_end c) /\
     (key (snd (t_prev s)) <= key (c_init c) \/ key (snd (t_prev s)) < key (t_t s)));
  i_opt : t_opt s = fm \/ placeable (snd (t_prev s)) (t_opt s);
  i_off : Bltb (t_off s) fzero = false }.

(** What an iteration does to the feet. *)
Definition quiet (s s' : tst f64 P) : Prop :=
  t_left s' = t_left s /\ t_right s' = t_right s /\ t_sw s' = t_sw s /\ t_prev s' = t_prev s /\ t_t s' = t_t s /\
  (t_opt s' = t_opt s \/ placeable (snd (t_prev s)) (t_opt s')) /\ t_off s' = t_off s.
Definition placed (s s' : tst f64 P) : Prop := exists p t,
  t_step ieee (t_sw s) (t_left s) (t_right s) p t = Some (t_left s', t_right s') /\ t_sw s' = negb (t_sw s) /\
  t_prev s' = (p, t) /\ t_t s' = t /\ placeable (snd (t_prev s)) t /\ t_opt s' = fm /\ Bltb (t_off s') fzero = false.

Lemma step_last : forall sw (l r : tfoot f64 P) p t l' r', t_step ieee sw l r p t = Some (l', r') ->
  last_opt (if sw then l' else r') = Some (p, t).
Proof.
  intros sw l r p t l' r' H. unfold t_step, t_add in H. destruct sw; destruct (below0 ieee t); inversion H; subst; apply last_opt_app.
Qed.
Lemma refresh_placed : forall (s1 s' : tst f64 P) p t, last_opt (t_stance s1) = Some (p, t) -> t_refresh s1 = Ok s' ->
  t_left s' = t_left s1 /\ t_right s' = t_right s1 /\ t_sw s' = t_sw s1 /\ t_t s' = t_t s1 /\ t_opt s' = t_opt s1 /\
  t_off s' = t_off s1 /\ t_prev s' = (p, t).
Proof.
  intros s1 s' p t E H. unfold t_refresh in H. rewrite E in H. inversion H; subst. simpl. repeat split.
Qed.

Lemma body_cases : forall s s', inv s -> le64 (t_t s) (c_end c) -> t_body ieee c o s = Ok s' -> quiet s s' \/ placed s s'.
Proof.
  intros s s' I L H. unfold t_body in H.
  assert (Q0 : forall s1 : tst f64 P, s1 = s -> quiet s s1) by (intros s1 ->; repeat split; auto).
  assert (Q1 : forall a, quiet s (MkTS (t_left s) (t_right s) (t_sw s) (t_t s) (t_opt s) (t_minCost s) a (t_off s) (t_prev s)))
    by (intros; repeat split; auto).
  destruct (a_le ieee (c_min c) (a_sub ieee (t_t s) (snd (t_prev s))) && a_lt ieee (a_add ieee (c_init c) (t_off s)) (t_t s)) eqn:C;
    [|left; apply Q0; congruence].
  apply andb_true_iff in C. destruct C as (C1 & C2).
  change (le64 (c_min c) (fsub (t_t s) (snd (t_prev s)))) in C1. change (lt64 (fadd (c_init c) (t_off s)) (t_t s)) in C2.
  pose proof (le64_inv _ _ L) as L'.
  assert (PL : placeable (snd (t_prev s)) (t_t s)).
  { destruct (le64_number _ _ C1) as (_ & NN). destruct (i_old s I) as [E|(N & K0 & KE & K)].
    { exfalso. rewrite E in NN. apply NN. apply fsub_nan. }
    assert (key (c_init c) < key (t_t s)).
    { destruct (lt64_number _ _ C2) as (NA & _). destruct (not_neg _ (i_off s I)) as [E|(NO & KO)].
      - exfalso. apply NA. rewrite E. destruct (c_init c); reflexivity.
      - destruct (fadd_up _ _ Fi NO KO) as (_ & U & _). apply lt64_inv in C2. lra. }
    repeat split; auto. { apply (i_t s I). } lra. }
  clear C1 C2.
  destruct (negb (o_tiny o (t_sw s) (t_left s) (t_right s) (t_t s))) eqn:TI; [|left; inversion H; apply Q1].
  destruct (a_lt ieee (c_max c) (a_sub ieee (a_sub ieee (t_t s) (snd (t_prev s))) (t_pause s)) || a_eq ieee (t_t s) (c_end c)) eqn:D.
  - destruct (a_lt ieee (c0 ieee) (t_opt s)) eqn:OP.
    + unfold t_best in H.
      destruct (o_pose o (t_sw s) (t_left s) (t_right s) (t_opt s)) as [p|]; [|discriminate].
      destruct (t_step ieee (t_sw s) (t_left s) (t_right s) p (t_opt s)) as [[l r]|] eqn:SE; [|discriminate]. simpl in H.
      right. exists p, (t_opt s). pose proof (step_last _ _ _ _ _ _ _ SE) as LE.
      edestruct refresh_placed as (R1 & R2 & R3 & R4 & R5 & R6 & R7); [|exact H|].
      { unfold t_stance. simpl. destruct (t_sw s); exact LE. }
      rewrite R1, R2, R3, R4, R5, R6, R7. simpl. repeat (split; [solve [auto]|]). split.
      * destruct (i_opt s I) as [E|E]; auto. exfalso. rewrite E in OP. vm_compute in OP. discriminate.
      * split; auto.
    + unfold t_parallel in H. destruct (o_still o (t_sw s) (t_left s) (t_right s) (t_prev s)) as [tiny|]; [|discriminate].
      destruct (negb tiny).
      * destruct (o_par o (t_sw s) (t_left s) (t_right s)) as [p|]; [|discriminate].
        destruct (t_step ieee (t_sw s) (t_left s) (t_right s) p (t_t s)) as [[l r]|] eqn:SE; [|discriminate]. simpl in H.
        right. exists p, (t_t s). pose proof (step_last _ _ _ _ _ _ _ SE) as LE.
        edestruct refresh_placed as (R1 & R2 & R3 & R4 & R5 & R6 & R7); [|exact H|].
        { unfold t_stance. simpl. destruct (t_sw s); exact LE. }
        rewrite R1, R2, R3, R4, R5, R6, R7. simpl. repeat (split; [solve [auto]|]). split; [|auto].
        destruct (i_opt s I) as [E|(_ & NO & _ & KO & _)]; auto. exfalso.
        rewrite c0_zero in OP. change (Bltb fzero (t_opt s) = false) in OP. apply blt_false in OP; auto; [|discriminate].
        change (key fzero) with 0 in OP. lra.
      * left. simpl in H. destruct (t_prev s) as [p t] eqn:EP.
        edestruct refresh_placed as (R1 & R2 & R3 & R4 & R5 & R6 & R7); [|exact H|].
        { pose proof (i_prev s I) as IP. rewrite EP in IP. exact IP. }
        unfold quiet. rewrite R1, R2, R3, R4, R5, R6, R7, EP. simpl. repeat split; auto.
  - left. unfold t_try in H.
    destruct (o_cand o (t_sw s) (t_left s) (t_right s) (t_prev s) (t_t s) _) as [cand|]; [|discriminate].
    destruct (if a_lt ieee (c0 ieee) _ then cand else None) as [cost|]; [|apply Q0; congruence].
    destruct (a_lt ieee (t_opt s) (c0 ieee) || a_le ieee cost (t_minCost s)); [|apply Q0; congruence].
    inversion H; subst. unfold quiet. simpl. repeat split; auto.
Qed.

(** The next time is later. *)
Lemma advance_later : forall t, fin t = true -> key (c_init c) <= key t -> key t <= key (c_end c) ->
  number (t_advance ieee c t) /\ key t < key (t_advance ieee c t).
Proof.
  intros t F H1 H2. assert (N : number t) by (apply fin_number; auto).
  pose proof (fin_number _ Fi). pose proof (fin_number _ Fe).
  pose proof (Hadv t F (le64_key _ _ H N H1) (le64_key _ _ N H0 H2)) as A.
  destruct (lt64_number _ _ A) as (_ & NA). apply lt64_inv in A.
  unfold t_advance. change (a_add ieee t (c_dT c)) with (fadd t (c_dT c)).
  destruct (a_lt ieee (c_end c) (fadd t (c_dT c))) eqn:E1; simpl; auto.
  destruct (Bltb t (c_end c)) eqn:E2; auto. split; auto. apply lt64_inv in E2. exact E2.
Qed.

Lemma iter_inv : forall s s', inv s -> le64 (t_t s) (c_end c) -> t_iter ieee c o s = Ok s' ->
  inv s' /\ exists s1, t_body ieee c o s = Ok s1 /\ (quiet s s1 \/ placed s s1) /\
    t_left s' = t_left s1 /\ t_right s' = t_right s1 /\ t_sw s' = t_sw s1 /\ t_prev s' = t_prev s1 /\
    key (t_t s1) < key (t_t s') /\ key (t_t s1) <= key (c_end c) /\ key (c_init c) <= key (t_t s1).
Proof.
  intros s s' I L H. unfold t_iter in H. destruct (t_body ieee c o s) as [s1| |] eqn:B; try discriminate. simpl in H.
  pose proof (body_cases s s1 I L B) as Cs. apply le64_inv in L.
  assert (T : fin (t_t s1) = true /\ key (c_init c) <= key (t_t s1) /\ key (t_t s1) <= key (c_end c)).
  { destruct Cs as [(_ & _ & _ & _ & E & _)|(p & t & _ & _ & _ & E & (_ & N & K1 & K2 & K3 & _) & _)]; rewrite E.
    - repeat split; auto; [|apply (i_init s I)]. apply key_number_fin with (c_init c) (c_end c); auto; [apply (i_t s I)|apply (i_init s I)].
    - repeat split; auto; try lra. apply key_number_fin with (c_init c) (c_end c); auto; lra. }
  destruct T as (F & T1 & T2). destruct (advance_later _ F T1 T2) as (A1 & A2).
  inversion H; subst s'; clear H. simpl. split; [|exists s1; repeat split; auto].
  destruct Cs as [(E1 & E2 & E3 & E4 & E5 & E6 & E7)|(p & t & E1 & E2 & E3 & E4 & E5 & E6 & E7)].
  - constructor; simpl; auto; try lra.
    + unfold t_stance. simpl. rewrite E1, E2, E3, E4. apply (i_prev s I).
    + rewrite E4. destruct (i_old s I) as [K|(K1 & K2 & K3 & K4)]; auto. right. repeat split; auto.
      destruct K4 as [K4|K4]; auto. right. rewrite E5 in A2. rewrite E5. lra.
    + rewrite E4. destruct E6 as [E6|E6]; auto. rewrite E6. apply (i_opt s I).
    + rewrite E7. apply (i_off s I).
  - destruct E5 as (P1 & P2 & P3 & P4 & P5 & P6). constructor; simpl; auto; try lra.
    + unfold t_stance. simpl. rewrite E2, E3. pose proof (step_last _ _ _ _ _ _ _ E1) as LE. destruct (t_sw s); exact LE.
    + right. rewrite E3. simpl. repeat split; auto; try lra. right. rewrite <- E4 at 1. exact A2.
Qed.
End Search.
