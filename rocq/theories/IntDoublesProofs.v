(** The index of the sample in doubles. *)
From Coq Require Import Reals ZArith List Bool Lia Lra.
From Flocq Require Import Core IEEE754.BinarySingleNaN.
From Verif Require Import Prelude Rounding RoundedGen RoundedGenSpec RoundedGenProofs2 RoundedGenProofs3 Controllers ControlSpec Doubles DoublesSpec DoublesProofs DoublesProofs2 DoublesProofs5 CtrlDoubles CtrlDoublesSpec CtrlDoublesProofs
  StepDoublesSpec StepDoublesProofs EllDoublesProofs EllDoublesProofs2 UniDoubles UniDoublesSpec UniDoublesProofs PersonDoubles PersonDoublesSpec PersonDoublesProofs IntDoubles IntDoublesSpec.
Import ListNotations.
Open Scope R_scope.

Definition quot (t t0 h : f64) : f64 := fdiv (fsub t t0) h.
Lemma quot_ok : forall t t0 h X, held (bpow radix2 400) t -> held (bpow radix2 400) t0 -> fin h = true -> bpow radix2 (-100) <= f2r h -> Rabs ((f2r t - f2r t0) / f2r h) <= X -> X <= bpow radix2 600 ->
  fin (quot t t0 h) = true /\ f2r (quot t t0 h) = b64 (b64 (f2r t - f2r t0) / f2r h) /\ Rabs (f2r (quot t t0 h) - (f2r t - f2r t0) / f2r h) <= 17 / 8 * (u64 * X) + bpow radix2 (-801).
Proof.
  intros t t0 h X (Ft & Bt) (F0 & B0) Fh Hh HX BX. pose proof (bpow_gt_0 radix2 (-100)) as P. set (D := f2r t - f2r t0) in *. set (H := f2r h) in *. assert (H0 : 0 < H) by lra. destruct u64_bounds as ((U0 & U1) & _).
  assert (X0 : 0 <= X) by (pose proof (Rabs_pos (D / H)); lra).
  assert (BD : Rabs D <= bpow radix2 401). { assert (bpow radix2 401 = 2 * bpow radix2 400) by (change 2 with (bpow radix2 1); rewrite <- bpow_plus; reflexivity). unfold D. pose proof (Rabs_triang (f2r t) (- f2r t0)) as Z. rewrite (Rabs_Ropp (f2r t0)) in Z. unfold Rminus. lra. }
  destruct (fsub_ok t t0 Ft F0) as (Fs & Es). { fold D. apply big_fin. pose proof (bpow_le radix2 401 1000 ltac:(lia)). lra. } fold D in Es.
  pose proof (b64_near D (Rabs D) (Rle_refl _)) as N1. assert (ED : Rabs D = Rabs (D / H) * H) by (unfold Rdiv; rewrite Rabs_mult, Rabs_inv, (Rabs_pos_eq H) by lra; field; lra).
  assert (EH : eta64 / H <= bpow radix2 (-900)). { apply Rle_trans with (eta64 * bpow radix2 100); [apply Rmult_le_compat_l; [apply eta64_pos|]; replace (bpow radix2 100) with (/ bpow radix2 (-100)) by (rewrite <- bpow_opp; reflexivity); apply Rinv_le; auto|]. unfold eta64. change (/ 2) with (bpow radix2 (-1)). rewrite <- !bpow_plus. apply bpow_le. lia. }
  assert (N2 : Rabs (b64 D / H - D / H) <= u64 * X + bpow radix2 (-900)). { replace (b64 D / H - D / H) with ((b64 D - D) * / H) by (unfold Rdiv; ring). rewrite Rabs_mult, Rabs_inv, (Rabs_pos_eq H) by lra. apply Rle_trans with ((u64 * Rabs D + eta64) * / H); [apply Rmult_le_compat_r; [apply Rlt_le, Rinv_0_lt_compat; auto|auto]|].
    replace ((u64 * Rabs D + eta64) * / H) with (u64 * Rabs (D / H) + eta64 / H) by (rewrite ED; field; lra). assert (u64 * Rabs (D / H) <= u64 * X) by (apply Rmult_le_compat_l; lra). lra. }
  assert (UX : u64 * X <= / 9007199254740992 * X) by (apply Rmult_le_compat_r; lra). pose proof (bpow_le radix2 (-900) 0 ltac:(lia)) as L0. change (bpow radix2 0) with 1 in L0.
  assert (Z : Rabs (b64 D / H) <= X + (u64 * X + bpow radix2 (-900))) by (replace (b64 D / H) with ((b64 D / H - D / H) + D / H) by ring; pose proof (Rabs_triang (b64 D / H - D / H) (D / H)); lra).
  assert (T : bpow radix2 600 + bpow radix2 600 + 1 <= bpow radix2 1000). { pose proof (bpow_le radix2 0 600 ltac:(lia)). change (bpow radix2 0) with 1 in *. pose proof (four_pow 600). change (600 + 2)%Z with 602%Z in *. pose proof (bpow_le radix2 602 1000 ltac:(lia)). lra. }
  destruct (fdiv_ok (fsub t t0) h Fs) as (Fq & Eq). { fold H. lra. } { rewrite Es. fold H. apply big_fin. lra. } fold H in Eq. rewrite Es in Eq.
  split; [exact Fq|]. split; [exact Eq|]. unfold quot. rewrite Eq. pose proof (b64_near _ _ Z) as N3. pose proof (eta64_pos). assert (E1 : eta64 <= bpow radix2 (-900)) by (unfold eta64; change (/ 2) with (bpow radix2 (-1)); rewrite <- bpow_plus; apply bpow_le; lia).
  assert (E2 : 4 * bpow radix2 (-900) <= bpow radix2 (-801)) by (rewrite four_pow; apply bpow_le; lia). assert (0 <= u64 * X) by (apply Rmult_le_pos; lra). assert (u64 * (u64 * X) <= / 9007199254740992 * (u64 * X)) by (apply Rmult_le_compat_r; lra).
  assert (0 <= bpow radix2 (-900)) by apply bpow_ge_0. assert (u64 * bpow radix2 (-900) <= / 9007199254740992 * bpow radix2 (-900)) by (apply Rmult_le_compat_r; lra).
  replace (u64 * (X + (u64 * X + bpow radix2 (-900)))) with (u64 * X + u64 * (u64 * X) + u64 * bpow radix2 (-900)) in N3 by ring.
  replace (b64 (b64 D / H) - D / H) with ((b64 (b64 D / H) - b64 D / H) + (b64 D / H - D / H)) by ring. pose proof (Rabs_triang (b64 (b64 D / H) - b64 D / H) (b64 D / H - D / H)). lra.
Qed.
Lemma round_pos : forall x, fin x = true -> 0 <= f2r x <= bpow radix2 52 -> exists j, a_round ieee x = Ok j /\ INR j <= f2r x + / 2 < INR j + 1 /\ j = Z.to_nat (Zfloor (f2r x + / 2)).
Proof.
  intros x F (H0 & H1). assert (E : Rround (f2r x) = Zfloor (f2r x + / 2)) by (unfold Rround; destruct (Rlt_dec (f2r x) 0); [lra|reflexivity]). assert (Z0 : (0 <= Zfloor (f2r x + / 2))%Z) by (apply Zfloor_lub; simpl; lra).
  pose proof (round_small (f2r x) H1) as RS. rewrite E in RS. exists (Z.to_nat (Zfloor (f2r x + / 2))). cbn [a_round ieee]. unfold fround. rewrite F, E. unfold to_size64. destruct (Z.ltb_spec (Zfloor (f2r x + / 2)) 0); [lia|]. destruct (Z.leb_spec (2 ^ 64) (Zfloor (f2r x + / 2))); [lia|]. cbn [orb].
  rewrite INR_IZR_INZ, Z2Nat.id by auto. pose proof (Zfloor_lb (f2r x + / 2)). pose proof (Zfloor_ub (f2r x + / 2)). auto.
Qed.
Section Grid.
Variables (t0 T h : f64) (n : nat).
Hypothesis G : grid t0 T h n.
Let H := f2r h.
Lemma grid_pos : 0 < H /\ f2r T - f2r t0 <= (INR n + / 32) * H.
Proof.
  destruct G as [(A1 & A2 & A3) B C D]. fold H in B, D. pose proof (bpow_gt_0 radix2 (-100)). split; [lra|]. pose proof (pos_INR n). assert (Q : INR n * bpow radix2 (-45) <= / 32). { change (/ 32) with (bpow radix2 (-5)). replace (bpow radix2 (-5)) with (bpow radix2 40 * bpow radix2 (-45)) by (rewrite <- bpow_plus; reflexivity). apply Rmult_le_compat_r; [apply bpow_ge_0|auto]. }
  replace (INR n * H * (1 + bpow radix2 (-45))) with (INR n * H + INR n * bpow radix2 (-45) * H) in D by ring. assert (INR n * bpow radix2 (-45) * H <= / 32 * H) by (apply Rmult_le_compat_r; lra). lra.
Qed.
Lemma index_ok : forall t, during t0 T t -> exists j, a_round ieee (quot t t0 h) = Ok j /\ (j <= n)%nat /\ nearest t0 h t j /\ j = Z.to_nat (Zfloor (f2r (quot t t0 h) + / 2)).
Proof.
  intros t (Ft & L0 & L1). destruct grid_pos as (H0 & TR). destruct G as [(A1 & A2 & (A3 & _)) B C _]. fold H in B. set (D := f2r t - f2r t0). assert (D0 : 0 <= D) by (unfold D; lra). destruct u64_bounds as ((U0 & U1) & EU).
  assert (HT : held (bpow radix2 400) t). { split; auto. destruct A1 as (_ & A1). destruct A2 as (_ & A2). apply Rabs_le_inv in A1. apply Rabs_le_inv in A2. apply Rabs_le. lra. }
  set (X := D / H). assert (X0 : 0 <= X) by (apply Rmult_le_pos; auto; apply Rlt_le, Rinv_0_lt_compat; auto). assert (DX : D = X * H) by (unfold X; field; lra).
  assert (X1 : X <= INR n + / 32). { apply Rmult_le_reg_r with H; auto. rewrite <- DX. unfold D. lra. } assert (P41 : bpow radix2 41 = 2 * bpow radix2 40) by (change 2 with (bpow radix2 1); rewrite <- bpow_plus; reflexivity). assert (P40 : 1 <= bpow radix2 40) by (change 1 with (bpow radix2 0); apply bpow_le; lia).
  assert (X2 : X <= bpow radix2 41) by lra. pose proof (bpow_le radix2 41 600 ltac:(lia)).
  destruct (quot_ok t t0 h X HT A1 A3 B) as (Fq & Eq & Nq). { fold D H. fold X. rewrite Rabs_pos_eq; lra. } { lra. } fold D H X in Nq. fold D H in Eq.
  assert (UX : u64 * X <= bpow radix2 (-12)). { rewrite EU. replace (bpow radix2 (-12)) with (bpow radix2 (-53) * bpow radix2 41) by (rewrite <- bpow_plus; reflexivity). apply Rmult_le_compat_l; auto. apply bpow_ge_0. }
  assert (S8 : bpow radix2 (-801) <= bpow radix2 (-12)) by (apply bpow_le; lia). assert (P12 : bpow radix2 (-12) = / 4096) by (simpl; lra).
  assert (Q0 : 0 <= f2r (quot t t0 h)). { rewrite Eq. apply (rnd_nonneg _ b64_rounding). apply Rmult_le_pos; [apply (rnd_nonneg _ b64_rounding); auto|apply Rlt_le, Rinv_0_lt_compat; auto]. }
  apply Rabs_le_inv in Nq. assert (Q1 : f2r (quot t t0 h) <= bpow radix2 52). { pose proof (bpow_le radix2 42 52 ltac:(lia)). assert (bpow radix2 42 = 2 * bpow radix2 41) by (change 2 with (bpow radix2 1); rewrite <- bpow_plus; reflexivity). lra. }
  destruct (round_pos _ Fq (conj Q0 Q1)) as (j & Ej & (J1 & J2) & Jd). exists j. split; [exact Ej|]. split; [|split; [|exact Jd]].
  - assert (INR j < INR n + 1) by lra. rewrite <- S_INR in *. apply INR_lt in H2. lia.
  - unfold nearest. fold H. fold D. replace (f2r t - (f2r t0 + INR j * H)) with (D - INR j * H) by (unfold D; ring). rewrite DX. replace (X * H - INR j * H) with ((X - INR j) * H) by ring. rewrite Rabs_mult, (Rabs_pos_eq H) by lra.
    replace (H / 2 + bpow radix2 (-51) * (X * H) + bpow radix2 (-800) * H) with ((/ 2 + bpow radix2 (-51) * X + bpow radix2 (-800)) * H) by field. apply Rmult_le_compat_r; [lra|].
    assert (E51 : bpow radix2 (-51) = 4 * u64) by (rewrite EU; change 4 with (bpow radix2 2); rewrite <- bpow_plus; reflexivity). rewrite E51. replace (4 * u64 * X) with (4 * (u64 * X)) by ring. assert (0 <= u64 * X) by (apply Rmult_le_pos; lra). assert (bpow radix2 (-801) <= bpow radix2 (-800)) by (apply bpow_le; lia). apply Rabs_le. lra.
Qed.
Lemma index_mono : forall t t' j j', during t0 T t -> during t0 T t' -> f2r t <= f2r t' -> a_round ieee (quot t t0 h) = Ok j -> a_round ieee (quot t' t0 h) = Ok j' -> (j <= j')%nat.
Proof.
  intros t t' j j' D D' L E E'. destruct (index_ok t D) as (i & Ei & _ & _ & Di). destruct (index_ok t' D') as (i' & Ei' & _ & _ & Di'). rewrite E in Ei. injection Ei as <-. rewrite E' in Ei'. injection Ei' as <-.
  destruct grid_pos as (H0 & TR). destruct G as [(A1 & A2 & (A3 & _)) B C _]. assert (HT : forall s, during t0 T s -> held (bpow radix2 400) s). { intros s (Fs & L0 & L1). split; auto. destruct A1 as (_ & A1). destruct A2 as (_ & A2). apply Rabs_le_inv in A1. apply Rabs_le_inv in A2. apply Rabs_le. lra. }
  assert (QE : forall s, during t0 T s -> f2r (quot s t0 h) = b64 (b64 (f2r s - f2r t0) / H)). { intros s Ds. apply (quot_ok s t0 h (INR n + / 32)); auto.
    - destruct Ds as (Fs & L0 & L1). fold H. assert (0 <= (f2r s - f2r t0) / H) by (apply Rmult_le_pos; [lra|apply Rlt_le, Rinv_0_lt_compat; auto]). rewrite Rabs_pos_eq by auto. apply Rmult_le_reg_r with H; auto. unfold Rdiv. rewrite Rmult_assoc, Rinv_l by lra. lra.
    - pose proof (bpow_le radix2 40 600 ltac:(lia)). assert (bpow radix2 41 = 2 * bpow radix2 40) by (change 2 with (bpow radix2 1); rewrite <- bpow_plus; reflexivity). pose proof (bpow_le radix2 41 600 ltac:(lia)). pose proof (bpow_le radix2 0 40 ltac:(lia)). change (bpow radix2 0) with 1 in *. lra. }
  assert (QP : forall s, during t0 T s -> 0 <= f2r (quot s t0 h)). { intros s Ds. rewrite (QE s Ds). destruct Ds as (_ & Z & _). apply (rnd_nonneg _ b64_rounding). apply Rmult_le_pos; [apply (rnd_nonneg _ b64_rounding); lra|apply Rlt_le, Rinv_0_lt_compat; auto]. }
  assert (Z : forall s, during t0 T s -> (0 <= Zfloor (f2r (quot s t0 h) + / 2))%Z) by (intros s Ds; pose proof (QP s Ds); apply Zfloor_lub; simpl; lra).
  rewrite Di, Di'. apply Z2Nat.inj_le; auto.
  apply Zfloor_le. apply Rplus_le_compat_r. rewrite (QE t D), (QE t' D'). apply b64_mono. apply Rmult_le_compat_r; [apply Rlt_le, Rinv_0_lt_compat; auto|]. apply b64_mono. lra.
Qed.
End Grid.

(** ** Traces *)
Section Traces.
Variables (N : Type) (A : arith N) (M : maths N) (K : Type) (ctl : K -> N -> dpose N -> option (K * dcmd N)) (S : field -> N).
Lemma roll_app : forall a b k u, u_roll A M ctl S k u (a ++ b) = match u_roll A M ctl S k u a with None => None | Some (k', u') => u_roll A M ctl S k' u' b end.
Proof. induction a as [|(t, h) a IH]; intros b k u; [reflexivity|]. cbn [app u_roll]. destruct (ctl k t u) as [[k' raw]|]; [apply IH|reflexivity]. Qed.
Lemma trace_length : forall steps k u tr, u_trace A M ctl S k u steps = Some tr -> length tr = Datatypes.S (length steps).
Proof.
  induction steps as [|(t, h) r IH]; intros k u tr H; cbn [u_trace] in H; [injection H as <-; reflexivity|]. destruct (ctl k t u) as [[k' raw]|]; [|discriminate]. destruct (u_trace _ _ _ _ _ _ r) as [tr'|] eqn:E; [|discriminate]. injection H as <-. cbn [length]. rewrite (IH _ _ _ E). reflexivity.
Qed.
Lemma trace_nth : forall steps k u tr j d, u_trace A M ctl S k u steps = Some tr -> (j <= length steps)%nat -> exists k', u_roll A M ctl S k u (firstn j steps) = Some (k', nth j tr d).
Proof.
  induction steps as [|(t, h) r IH]; intros k u tr j d H L; cbn [u_trace] in H.
  - injection H as <-. cbn in L. assert (j = 0)%nat by lia. subst j. exists k. reflexivity.
  - destruct (ctl k t u) as [[k' raw]|] eqn:C; [|discriminate]. destruct (u_trace _ _ _ _ _ _ r) as [tr'|] eqn:E; [|discriminate]. injection H as <-. destruct j as [|j]; [exists k; reflexivity|]. cbn [firstn u_roll nth]. rewrite C. apply (IH _ _ _ _ _ E). cbn in L. lia.
Qed.
Lemma trace_part : forall steps k u tr i j d, u_trace A M ctl S k u steps = Some tr -> (i <= j <= length steps)%nat ->
  exists ki kj, u_roll A M ctl S k u (firstn i steps) = Some (ki, nth i tr d) /\ u_roll A M ctl S ki (nth i tr d) (firstn (j - i) (skipn i steps)) = Some (kj, nth j tr d).
Proof.
  intros steps k u tr i j d H L. destruct (trace_nth _ _ _ _ i d H ltac:(lia)) as (ki & Ei). destruct (trace_nth _ _ _ _ j d H ltac:(lia)) as (kj & Ej). exists ki, kj. split; [exact Ei|].
  replace (firstn j steps) with (firstn i steps ++ firstn (j - i) (skipn i steps)) in Ej. { rewrite roll_app, Ei in Ej. exact Ej. }
  rewrite firstn_skipn_comm. replace (i + (j - i))%nat with j by lia. rewrite <- (firstn_skipn i (firstn j steps)) at 2. rewrite firstn_firstn, Nat.min_l by lia. reflexivity.
Qed.
End Traces.
