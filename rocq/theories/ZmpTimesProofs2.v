(** The whole ZMP computation in doubles. *)
From Coq Require Import String Reals ZArith List Bool Lia Lra Sorting.Sorted.
From Flocq Require Import Core IEEE754.BinarySingleNaN.
From Verif Require Import Prelude Rounding GenPhases GenSpec RoundedGen RoundedGenSpec RoundedGenProofs2 RoundedGenProofs3 ZMP
  Doubles DoublesGen DoublesSpec DoublesProofs DoublesProofs2 DoublesExec GenProofs AnyArithSpec DcmTimesSpec DcmTimesProofs ZmpTimes ZmpTimesSpec ZmpTimesProofs.
Import ListNotations.
Open Scope R_scope.

(** ** The loop over the phases *)
Lemma pauses_spec : forall dT pause mx nom es n, z_limits dT pause mx nom es n ->
  (z_pauses ieee pause mx nom es dT n = true <-> paused dT pause mx nom es n).
Proof.
  intros dT pause mx nom es n lim. unfold paused, z_pauses. destruct pause; [|split; [discriminate|intros (? & _); discriminate]]. cbn [andb a_lt a_add ieee].
  change (z_dur ieee dT n) with (instant dT n).
  pose proof (zl_mx _ _ _ _ _ _ lim eq_refl) as Fm. destruct (zl_nom _ _ _ _ _ _ lim eq_refl) as (Fn & Hn). destruct (zl_es _ _ _ _ _ _ lim eq_refl) as (Fe & He).
  assert (B : 2 * bpow radix2 900 <= top).
  { replace (2 * bpow radix2 900) with (bpow radix2 901); [apply pow961_top; lia|]. change 2 with (bpow radix2 1). rewrite <- bpow_plus. reflexivity. }
  destruct (fadd_ok es nom Fe Fn) as (Fs & Vs). { rewrite Rabs_pos_eq by lra. lra. }
  assert (Fi : fin (instant dT n) = true).
  { destruct (fmake_nat n (zl_n _ _ _ _ _ _ lim)) as (F & V). destruct (zl_dT _ _ _ _ _ _ lim) as (Fd & Hd). pose proof (bpow_gt_0 radix2 (-900)).
    apply (fmul_ok (fmake (Z.of_nat n) 0) dT F Fd). rewrite V. pose proof (INR_Z n _ (zl_n _ _ _ _ _ _ lim)) as L. pose proof (pos_INR n).
    rewrite Rabs_pos_eq by (apply Rmult_le_pos; lra). apply Rle_trans with (IZR (2 ^ 50) * bpow radix2 900); [apply Rmult_le_compat; lra|].
    change (IZR (2 ^ 50)) with (bpow radix2 50). rewrite <- bpow_plus. apply pow961_top. lia. }
  unfold lt64. rewrite (blt_ok mx (fadd es nom)), (blt_ok mx (instant dT n)), (blt_ok (fadd es nom) (instant dT n)) by auto.
  unfold Rltb at 1. destruct (Rlt_dec (f2r mx) (f2r (fadd es nom))) as [L|L]; rewrite blt_ok by auto; unfold Rltb;
    destruct (Rlt_dec (f2r (fadd es nom)) _), (Rlt_dec (f2r mx) _); (split; [intros K; try discriminate K; repeat split; auto; lra|intros (_ & K1 & K2); try discriminate K1; try discriminate K2; auto; lra]).
Qed.
Lemma last_sorted : forall l a, StronglySorted lt (a :: l) -> l <> [] -> (a < last l 0)%nat.
Proof.
  induction l as [|b l IH]; intros a H N; [congruence|]. inversion H as [|? ? H1 H2]; subst. inversion H2; subst.
  destruct l as [|c l]; [auto|]. specialize (IH b H1 ltac:(discriminate)). change (last (b :: c :: l) 0%nat) with (last (c :: l) 0%nat). lia.
Qed.
Section Loop.
Variable ph : list phase.
Variable piece : bool -> bool -> phase -> nat -> nat -> res (list (option (f64 * f64))).
Notation len := (length ph).
Lemma some_phase : forall i, (i < len)%nat -> exists p, nth_error ph i = Some p.
Proof. intros i H. destruct (nth_error ph i) eqn:E; eauto. apply nth_error_None in E. lia. Qed.
Lemma loop_prefix : (forall first p i e, (i < e < len)%nat -> fine (e - i) (piece first false p i e)) ->
  forall ends inst first, StronglySorted lt (inst :: ends) -> ends <> [] -> last ends 0%nat = len ->
  let i0 := nth (length ends - 1) (inst :: ends) 0%nat in
  exists pre p, nth_error ph i0 = Some p /\ (inst <= i0 < len)%nat /\ length pre = (i0 - inst)%nat /\ evaluated_inside pre
  /\ phase_loop piece ph ends first inst
     = do out <- piece (first && Nat.eqb (length ends) 1) true p i0 len; if Nat.ltb len (i0 + length out) then UB else Ok (pre ++ out).
Proof.
  intros HP. induction ends as [|e r IH]; intros inst first Hs Hn Hl i0; [congruence|]. pose proof (last_sorted _ _ Hs Hn) as L0. rewrite Hl in L0.
  inversion Hs as [|? ? H1 H2]; subst. inversion H2 as [|? ? H3 H4]; subst.
  destruct r as [|e2 r].
  - cbn [last] in Hl. subst e. unfold i0. cbn [length Nat.sub nth phase_loop Nat.eqb]. destruct (some_phase inst L0) as (p & Ep). exists [], p. rewrite Ep.
    split; auto. split; [lia|]. split; [cbn; lia|]. split; [intros t x []|]. rewrite andb_true_r. cbn [app].
    destruct (piece first true p inst len) as [out| |]; cbn [rbind]; auto. destruct (Nat.ltb _ _); auto. cbn [rbind]. rewrite app_nil_r. auto.
  - pose proof (last_sorted _ _ H1 ltac:(discriminate)) as L1. change (last (e :: e2 :: r) 0%nat) with (last (e2 :: r) 0%nat) in Hl. rewrite Hl in L1.
    remember (e2 :: r) as r' eqn:Er. cbn [phase_loop]. destruct (some_phase inst L0) as (p & Ep). rewrite Ep.
    replace (match r' with [] => true | _ :: _ => false end) with false by (rewrite Er; reflexivity).
    destruct (HP first p inst e ltac:(lia)) as (out & O1 & O2 & O3). rewrite O1. cbn [rbind].
    destruct (Nat.ltb_spec len (inst + length out)); [lia|].
    replace (inst + length out)%nat with e by lia.
    destruct (IH e false H1 ltac:(rewrite Er; discriminate) Hl) as (pre & p' & I1 & I2 & I3 & I4 & I5).
    assert (Ei : nth (length r' - 1) (e :: r') 0%nat = i0).
    { unfold i0. cbn [length]. rewrite Er. cbn [length]. replace (S (S (length r)) - 1)%nat with (S (S (length r) - 1)) by lia. reflexivity. }
    rewrite Ei in I1, I2, I3, I5. exists (out ++ pre), p'. split; auto. split; [lia|]. split; [rewrite app_length; lia|]. split; [apply inside_app; auto|].
    rewrite I5. cbn [andb]. replace (Nat.eqb (length (e :: r')) 1) with false by (rewrite Er; reflexivity). rewrite andb_false_r.
    destruct (piece false true p' i0 len) as [o| |]; cbn [rbind]; auto. destruct (Nat.ltb _ _); auto. cbn [rbind]. rewrite app_assoc. auto.
Qed.
Lemma loop_safe : (forall first last p i e, (i < e <= len)%nat -> (last = false -> (e < len)%nat) -> piece first last p i e = Fail \/ fine (e - i) (piece first last p i e)) ->
  forall ends inst first, StronglySorted lt (inst :: ends) -> ends <> [] -> last ends 0%nat = len ->
  phase_loop piece ph ends first inst = Fail \/ fine (len - inst) (phase_loop piece ph ends first inst).
Proof.
  intros HP. induction ends as [|e r IH]; intros inst first Hs Hn Hl; [congruence|]. pose proof (last_sorted _ _ Hs Hn) as L0. rewrite Hl in L0.
  inversion Hs as [|? ? H1 H2]; subst. inversion H2 as [|? ? H3 H4]; subst. cbn [phase_loop]. destruct (some_phase inst L0) as (p & Ep). rewrite Ep.
  destruct r as [|e2 r].
  - cbn [last] in Hl. subst e. destruct (HP first true p inst len ltac:(lia) ltac:(discriminate)) as [->|(out & O1 & O2 & O3)]; [left; reflexivity|].
    rewrite O1. cbn [rbind]. destruct (Nat.ltb_spec len (inst + length out)); [lia|]. cbn [rbind phase_loop]. right. rewrite app_nil_r. exists out. auto.
  - pose proof (last_sorted _ _ H1 ltac:(discriminate)) as L1. change (last (e :: e2 :: r) 0%nat) with (last (e2 :: r) 0%nat) in Hl. rewrite Hl in L1.
    destruct (HP first false p inst e ltac:(lia) ltac:(lia)) as [->|(out & O1 & O2 & O3)]; [left; reflexivity|].
    rewrite O1. cbn [rbind]. destruct (Nat.ltb_spec len (inst + length out)); [lia|]. replace (inst + length out)%nat with e by lia.
    destruct (IH e false H1 ltac:(discriminate) Hl) as [->|(o2 & P1 & P2 & P3)]; [left; reflexivity|]. rewrite P1. cbn [rbind]. right.
    exists (out ++ o2). split; auto. split; [rewrite app_length; lia|apply inside_app; auto].
Qed.
End Loop.

Section All.
Variables dT mx nom es : f64.
Variable pause : bool.
Variable ph : list phase.
Variable shift : list nat.
Hypothesis lim : z_limits dT pause mx nom es (length ph).
Hypothesis cut : cuts ph shift.
Notation i0 := (last_begin shift).
Lemma cut_inv : exists ends, shift = 0%nat :: ends /\ StronglySorted lt (0%nat :: ends) /\ ends <> [] /\ last ends 0%nat = length ph
  /\ nth (length ends - 1) (0%nat :: ends) 0%nat = i0 /\ (length ends = 1 <-> length shift = 2)%nat.
Proof.
  destruct cut as (A & B & C & D). destruct shift as [|a ends]; [discriminate|]. cbn in A. injection A as ->. exists ends. split; auto. split; auto.
  destruct ends as [|b r]; [cbn in C; lia|]. split; [discriminate|]. split; [exact D|]. split; [|cbn; lia]. reflexivity.
Qed.
Lemma begin_lt : (i0 < length ph)%nat.
Proof.
  destruct cut_inv as (ends & E1 & E2 & E3 & E4 & E5 & E6).
  destruct (loop_prefix ph (fun _ _ _ i e => Ok (repeat None (e - i))) (fun _ _ i e _ => fine_const (e - i)) ends 0 true E2 E3 E4) as (pre & p & P1 & P2 & _). rewrite E5 in P2. lia.
Qed.
Notation run := (z_local ieee whole_ieee pause mx nom es dT ph shift).
(** The local ZMP leaves its buffers exactly when the last phase is a SwitchOut without pause, whose number of samples
    comes out too large. *)
Lemma local_all : (run = UB <-> (2 < length shift)%nat /\ nth_error ph i0 = Some SwitchOut /\ ~ paused dT pause mx nom es (length ph - i0) /\ excess dT (length ph - i0))
  /\ (run = UB \/ fine (length ph) run).
Proof.
  destruct cut_inv as (ends & E1 & E2 & E3 & E4 & E5 & E6). pose proof begin_lt as Hb.
  destruct (loop_prefix ph (z_local_piece ieee whole_ieee pause mx nom es dT ph)) with (ends := ends) (inst := 0%nat) (first := true) as (pre & p & P1 & P2 & P3 & P4 & P5); auto.
  { intros first p i e H. apply (local_fine dT mx nom es pause ph lim first false p i e); auto. lia. }
  rewrite E5 in P1, P2, P3, P5. assert (ER : run = phase_loop (z_local_piece ieee whole_ieee pause mx nom es dT ph) ph ends true 0) by (unfold z_local; rewrite E1; reflexivity).
  rewrite ER. clear ER. unfold zsample in *. rewrite P5. cbn [andb].
  assert (lim' : z_limits dT pause mx nom es (length ph - i0)). { destruct lim. constructor; auto. lia. }
  pose proof (pauses_spec dT pause mx nom es (length ph - i0) lim') as PS.
  assert (Dec : (p = SwitchOut /\ Nat.eqb (length ends) 1 = false /\ z_pauses ieee pause mx nom es dT (length ph - i0) = false /\ excess dT (length ph - i0))
    \/ (p <> SwitchOut \/ Nat.eqb (length ends) 1 = true \/ z_pauses ieee pause mx nom es dT (length ph - i0) = true \/ ~ excess dT (length ph - i0))).
  { assert (De : excess dT (length ph - i0) \/ ~ excess dT (length ph - i0)) by (unfold excess, lt64; destruct (Bltb _ _); auto).
    destruct (Nat.eqb (length ends) 1); [auto|]. destruct (z_pauses ieee pause mx nom es dT (length ph - i0)); [auto|]. destruct De; [|auto]. destruct p; auto; right; left; discriminate. }
  destruct Dec as [(D1 & D2 & D3 & D4)|D].
  - rewrite D1, D2. rewrite (local_overrun dT mx nom es pause ph lim i0 Hb D3 D4). cbn [rbind]. split; [|left; reflexivity]. split; auto. intros _.
    split; [|split; [congruence|split; [rewrite <- PS, D3; discriminate|auto]]]. apply Nat.eqb_neq in D2. destruct cut as (_ & _ & C & _). lia.
  - destruct (local_fine dT mx nom es pause ph lim (Nat.eqb (length ends) 1) true p i0 (length ph) ltac:(lia)) as (out & O1 & O2 & O3). { tauto. }
    rewrite O1. cbn [rbind]. destruct (Nat.ltb_spec (length ph) (i0 + length out)); [lia|]. split.
    + split; [discriminate|]. intros (Q1 & Q2 & Q3 & Q4). exfalso. destruct D as [D|[D|[D|D]]]; [congruence|apply Nat.eqb_eq in D; lia|rewrite PS in D; auto|auto].
    + right. exists (pre ++ out). split; auto. split; [rewrite app_length; lia|apply inside_app; auto].
Qed.
Lemma weight_all : let w := z_weight ieee whole_ieee pause mx nom es dT ph shift in
  (w = Fail \/ fine (length ph) w) /\ ((pause = true -> f2r dT <= f2r nom) -> fine (length ph) w).
Proof.
  cbv zeta. destruct cut_inv as (ends & E1 & E2 & E3 & E4 & E5 & E6). pose proof begin_lt as Hb. unfold z_weight. rewrite E1. cbn [tl]. split.
  - pose proof (loop_safe ph (z_weight_piece ieee whole_ieee pause mx nom es dT ph)) as L. specialize (L (fun f l p i e H1 H2 => proj1 (weight_fine dT mx nom es pause ph lim f l p i e H1 H2)) ends 0%nat true E2 E3 E4).
    rewrite Nat.sub_0_r in L. exact L.
  - intros Hd. assert (Hf : forall f l p i e, (i < e <= length ph)%nat -> (l = false -> (e < length ph)%nat) -> fine (e - i) (z_weight_piece ieee whole_ieee pause mx nom es dT ph f l p i e)).
    { intros f l p i e H1 H2. apply (weight_fine dT mx nom es pause ph lim f l p i e H1 H2). intros Hp. apply Hd. unfold z_pauses in Hp. apply andb_prop in Hp. apply Hp. }
    destruct (loop_prefix ph (z_weight_piece ieee whole_ieee pause mx nom es dT ph)) with (ends := ends) (inst := 0%nat) (first := true) as (pre & p & P1 & P2 & P3 & P4 & P5); auto.
    { intros. apply Hf; lia. }
    rewrite E5 in P1, P2, P3, P5. unfold zsample in *. rewrite P5. destruct (Hf (true && Nat.eqb (length ends) 1) true p i0 (length ph) ltac:(lia) ltac:(discriminate)) as (out & O1 & O2 & O3). rewrite O1. cbn [rbind].
    destruct (Nat.ltb_spec (length ph) (i0 + length out)); [lia|]. exists (pre ++ out). split; auto. split; [rewrite app_length; lia|apply inside_app; auto].
Qed.
End All.
