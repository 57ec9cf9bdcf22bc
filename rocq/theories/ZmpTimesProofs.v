(** Proofs about the times of the ZMP generator in doubles. *)
From Coq Require Import String Reals ZArith List Bool Lia Lra Sorting.Sorted.
From Flocq Require Import Core IEEE754.BinarySingleNaN.
From Verif Require Import Prelude Rounding GenPhases RoundedGen RoundedGenSpec RoundedGenProofs2 RoundedGenProofs3 ZMP
  Doubles DoublesGen DoublesSpec DoublesProofs DoublesExec GenProofs DcmTimesSpec DcmTimesProofs ZmpTimes ZmpTimesSpec.
Import ListNotations.
Open Scope R_scope.

(** ** Whole numbers *)
Lemma whole_exec_ok : whole_ieee = whole_exec.
Proof.
  unfold whole_ieee, whole_exec. f_equal; apply FunctionalExtensionality.functional_extensionality; intros [s|s| |s m e H]; try reflexivity; unfold fwhole, fin, f2r; cbn [is_finite B2R fwhole_x].
  - f_equal. replace 0 with (IZR 0 * bpow radix2 0) by ring. apply zround_ok.
  - unfold F2R. cbn [Fnum Fexp]. rewrite zround_ok. reflexivity.
  - f_equal. apply (Zceil_IZR 0).
  - unfold F2R. cbn [Fnum Fexp]. rewrite zceil_ok. reflexivity.
Qed.
Lemma fwhole_ok : forall f x, fin x = true -> (Z.abs (f (f2r x)) <= 2 ^ 53)%Z -> fin (fwhole f x) = true /\ f2r (fwhole f x) = IZR (f (f2r x)).
Proof. intros f x H B. unfold fwhole. rewrite H. apply fmake_exact; auto. Qed.

(** A loop up to a whole number. *)
Lemma count_ok : forall b B, fin b = true -> f2r b = IZR B -> forall room i, (Z.of_nat (i + room) <= 2 ^ 50)%Z ->
  z_count ieee room i b = if Z.leb (B - Z.of_nat i) (Z.of_nat room) then Ok (Z.to_nat (B - Z.of_nat i)) else UB.
Proof.
  intros b B Fb Vb. induction room as [|room IH]; intros i Hi; cbn [z_count]; cbn [a_lt a_size ieee];
    (destruct (fmake_nat i ltac:(lia)) as (F & V); rewrite blt_ok by auto; rewrite V, Vb, INR_IZR_INZ).
  - unfold Rltb. destruct (Rlt_dec _ _) as [L|L].
    + apply lt_IZR in L. destruct (Z.leb_spec (B - Z.of_nat i) (Z.of_nat 0)); auto. lia.
    + assert (K : (B <= Z.of_nat i)%Z) by (apply le_IZR; lra). destruct (Z.leb_spec (B - Z.of_nat i) (Z.of_nat 0)); [|lia]. f_equal. lia.
  - unfold Rltb. destruct (Rlt_dec _ _) as [L|L].
    + apply lt_IZR in L. rewrite IH by lia.
      destruct (Z.leb_spec (B - Z.of_nat (S i)) (Z.of_nat room)), (Z.leb_spec (B - Z.of_nat i) (Z.of_nat (S room))); try lia; cbn [rbind]; auto. f_equal. lia.
    + assert (K : (B <= Z.of_nat i)%Z) by (apply le_IZR; lra). destruct (Z.leb_spec (B - Z.of_nat i) (Z.of_nat (S room))); [|lia]. f_equal. lia.
Qed.

Section Z.
Variables dT mx nom es : f64.
Variable pause : bool.
Variable ph : list phase.
Hypothesis lim : z_limits dT pause mx nom es (length ph).
Notation d := (f2r dT).
Notation zdur := (z_dur ieee dT).
Lemma zd_lo : bpow radix2 (-900) <= d. Proof. apply (zl_dT _ _ _ _ _ _ lim). Qed.
Lemma zd_hi : d <= bpow radix2 900. Proof. apply (zl_dT _ _ _ _ _ _ lim). Qed.
Hint Resolve zd_lo zd_hi : core.
Lemma zd_pos : 0 < d. Proof. apply d_pos; auto. Qed.
Lemma zd_fin : fin dT = true. Proof. apply (zl_dT _ _ _ _ _ _ lim). Qed.
Lemma zn : (Z.of_nat (length ph) <= 2 ^ 50)%Z. Proof. apply (zl_n _ _ _ _ _ _ lim). Qed.
Lemma zdur_val : forall n, (Z.of_nat n <= 2 ^ 50)%Z -> fin (zdur n) = true /\ f2r (zdur n) = T d n.
Proof.
  intros n H. destruct (fmake_nat n H) as (F & V). unfold z_dur. cbn [a_mul a_size ieee].
  destruct (fmul_ok (fmake (Z.of_nat n) 0) dT F zd_fin) as (A & B).
  - rewrite V. apply INR_Z in H. rewrite Rabs_pos_eq.
    + apply Rle_trans with (IZR (2 ^ 50) * bpow radix2 900).
      * apply Rmult_le_compat; auto; [apply pos_INR|pose proof zd_pos; lra].
      * change (IZR (2 ^ 50)) with (bpow radix2 50). rewrite <- bpow_plus. apply pow961_top. lia.
    + apply Rmult_le_pos; [apply pos_INR|pose proof zd_pos; lra].
  - split; auto. rewrite B, V. reflexivity.
Qed.
Lemma b64_nat : forall n, (Z.of_nat n <= 2 ^ 50)%Z -> b64 (INR n) = INR n.
Proof. intros n H. destruct (fmake_nat n H) as (F & V). rewrite <- V. apply f2r_fix. Qed.

(** A quotient that is at most about a number of samples. *)
Lemma quot_ok : forall x, fin x = true -> 0 <= f2r x -> f2r x / d <= bpow radix2 51 ->
  fin (fdiv x dT) = true /\ f2r (fdiv x dT) = b64 (f2r x / d) /\ 0 <= f2r (fdiv x dT) <= bpow radix2 51.
Proof.
  intros x Fx Hx L. pose proof zd_pos as P. assert (Q : 0 <= f2r x / d) by (apply Rmult_le_pos; [lra|apply Rlt_le, Rinv_0_lt_compat; lra]).
  destruct (fdiv_ok x dT Fx) as (A & B); [lra| |].
  - rewrite Rabs_pos_eq by auto. eapply Rle_trans; [exact L|apply pow961_top; lia].
  - split; auto. split; auto. rewrite B. split.
    + rewrite <- b64_0. apply (r_mono _ b64_rounding). auto.
    + rewrite <- (b64_fix (bpow radix2 51)). { apply (r_mono _ b64_rounding). auto. }
      replace (bpow radix2 51) with (IZR 1 * bpow radix2 51) by ring. apply is_b64_dyadic; lia.
Qed.
Lemma small_abs : forall z, (0 <= z)%Z -> IZR z <= bpow radix2 52 -> (Z.abs z <= 2 ^ 53)%Z.
Proof. intros z H L. change (bpow radix2 52) with (IZR (2 ^ 52)) in L. apply le_IZR in L. lia. Qed.
Lemma pow51 : bpow radix2 51 + 1 <= bpow radix2 52.
Proof. change (bpow radix2 51) with 2251799813685248. change (bpow radix2 52) with 4503599627370496. lra. Qed.
Lemma ceil_pos : forall x, 0 <= x -> (0 <= Zceil x)%Z.
Proof. intros x H. apply le_IZR. eapply Rle_trans; [|apply Zceil_ub]. exact H. Qed.
Lemma ceil_quot : forall x, fin x = true -> 0 <= f2r x -> f2r x / d <= bpow radix2 51 ->
  fin (fwhole Zceil (fdiv x dT)) = true /\ f2r (fwhole Zceil (fdiv x dT)) = IZR (Zceil (b64 (f2r x / d))).
Proof.
  intros x Fx Hx L. destruct (quot_ok x Fx Hx L) as (A & B & C). rewrite <- B. apply fwhole_ok; auto.
  apply small_abs; [apply ceil_pos; lra|]. pose proof pow51. pose proof (Zceil_lb (f2r (fdiv x dT))). lra.
Qed.
Lemma round_quot : forall x, fin x = true -> 0 <= f2r x -> f2r x / d <= bpow radix2 51 ->
  fin (fwhole Rround (fdiv x dT)) = true /\ f2r (fwhole Rround (fdiv x dT)) = IZR (Rround (b64 (f2r x / d))).
Proof.
  intros x Fx Hx L. destruct (quot_ok x Fx Hx L) as (A & B & C). rewrite <- B. apply fwhole_ok; auto.
  apply small_abs; [apply Rround_nonneg; lra|]. pose proof pow51. pose proof (Rround_bounds (f2r (fdiv x dT)) ltac:(lra)). lra.
Qed.
(** [instant + z] for a whole number [z]. *)
Lemma add_whole : forall i y z, (Z.of_nat i <= 2 ^ 50)%Z -> (0 <= z <= 2 ^ 52)%Z -> fin y = true -> f2r y = IZR z ->
  fin (fadd (fmake (Z.of_nat i) 0) y) = true /\ f2r (fadd (fmake (Z.of_nat i) 0) y) = IZR (Z.of_nat i + z).
Proof.
  intros i y z Hi Hz Fy Vy. destruct (fmake_nat i Hi) as (F & V). rewrite INR_IZR_INZ in V.
  destruct (fadd_ok _ y F Fy) as (A & B).
  - rewrite V, Vy, <- plus_IZR. rewrite Rabs_pos_eq by (apply (IZR_le 0); lia). apply Rle_trans with (bpow radix2 53); [|apply pow961_top; lia].
    change (bpow radix2 53) with (IZR (2 ^ 53)). apply IZR_le. lia.
  - split; auto. rewrite B, V, Vy, <- plus_IZR. apply b64_fix, is_b64_int. lia.
Qed.
Lemma sub_whole : forall i y z, (Z.of_nat i <= 2 ^ 50)%Z -> (0 <= z <= 2 ^ 52)%Z -> fin y = true -> f2r y = IZR z ->
  fin (fsub (fmake (Z.of_nat i) 0) y) = true /\ f2r (fsub (fmake (Z.of_nat i) 0) y) = IZR (Z.of_nat i - z).
Proof.
  intros i y z Hi Hz Fy Vy. destruct (fmake_nat i Hi) as (F & V). rewrite INR_IZR_INZ in V.
  destruct (fsub_ok _ y F Fy) as (A & B).
  - rewrite V, Vy, <- minus_IZR. apply Rle_trans with (bpow radix2 53); [|apply pow961_top; lia]. rewrite <- abs_IZR.
    change (bpow radix2 53) with (IZR (2 ^ 53)). apply IZR_le. lia.
  - split; auto. rewrite B, V, Vy, <- minus_IZR. apply b64_fix, is_b64_int. lia.
Qed.

(** ** Splines *)
Lemma spline_ok : forall x, fin x = true -> 0 < f2r x -> z_spline ieee x = Ok tt.
Proof.
  intros x F H. unfold z_spline. cbn [a_eq ieee]. rewrite c0_zero, beq_ok by auto. change (f2r fzero) with 0.
  unfold Reqb. destruct (Req_EM_T _ _); auto. lra.
Qed.
Lemma T_lo : forall n, (0 < n)%nat -> (Z.of_nat n <= 2 ^ 50)%Z -> 0 < T d n.
Proof. intros n H L. pose proof (T_gap d zd_lo 0 n L H) as G. rewrite T_0 in G by auto. pose proof zd_pos. lra. Qed.
Lemma evals_inside : forall x n, fin x = true -> (Z.of_nat n <= 2 ^ 50)%Z -> (forall k, (k < n)%nat -> T d k <= f2r x) -> evaluated_inside (z_evals ieee dT x n).
Proof.
  intros x n F L H t y I. unfold z_evals in I. apply in_map_iff in I. destruct I as (k & E & K). apply in_seq in K. injection E as <- <-.
  destruct (zdur_val k ltac:(lia)) as (F1 & V1). unfold z_dur in F1, V1. cbn [a_mul a_size ieee] in *. split; apply le_ok; auto.
  - rewrite V1. change (f2r fzero) with 0. apply T_pos; auto.
  - rewrite V1. apply H. lia.
Qed.
Lemma inside_nil : forall n, evaluated_inside (repeat None n).
Proof. intros n t x I. apply repeat_spec in I. discriminate. Qed.
Lemma inside_app : forall a b, evaluated_inside a -> evaluated_inside b -> evaluated_inside (a ++ b).
Proof. intros a b A B t x I. apply in_app_iff in I. destruct I as [I|I]; [apply A|apply B]; auto. Qed.
Lemma evals_len : forall x n, length (z_evals ieee dT x n) = n.
Proof. intros. unfold z_evals. rewrite map_length, seq_length. reflexivity. Qed.

(** ** Pauses *)
Lemma below_round : forall x y, fin x = true -> f2r x < b64 y -> f2r x <= y.
Proof.
  intros x y F H. destruct (Rle_dec (f2r x) y) as [|K]; auto. exfalso. apply Rnot_le_lt in K.
  assert (b64 y <= b64 (f2r x)) by (apply (r_mono _ b64_rounding); lra). rewrite f2r_fix in *. lra.
Qed.
Lemma pauses_inv : forall n, (Z.of_nat n <= 2 ^ 50)%Z -> z_pauses ieee pause mx nom es dT n = true ->
  pause = true /\ 0 < f2r es <= INR n * d /\ 0 <= f2r nom <= INR n * d /\ b64 (f2r es + f2r nom) <= INR n * d.
Proof.
  intros n H P. unfold z_pauses in P. apply andb_prop in P. destruct P as (P1 & P2).
  pose proof (zl_mx _ _ _ _ _ _ lim P1) as Fm. destruct (zl_nom _ _ _ _ _ _ lim P1) as (Fn & Hn). destruct (zl_es _ _ _ _ _ _ lim P1) as (Fe & He).
  split; auto. cbn [a_lt a_add ieee] in P2. destruct (zdur_val n H) as (Fd & Vd).
  assert (B : 2 * bpow radix2 900 <= top).
  { replace (2 * bpow radix2 900) with (bpow radix2 901); [apply pow961_top; lia|]. change 2 with (bpow radix2 1). rewrite <- bpow_plus. reflexivity. }
  destruct (fadd_ok es nom Fe Fn) as (Fs & Vs). { rewrite Rabs_pos_eq by lra. lra. }
  assert (L : f2r (fadd es nom) < T d n).
  { rewrite <- Vd. destruct (Bltb mx (fadd es nom)) eqn:C.
    - rewrite blt_ok in P2 by auto. apply Rltb_true in P2. exact P2.
    - rewrite blt_ok in C, P2 by auto. apply Rltb_true in P2. apply Rltb_false in C. lra. }
  apply below_round in L; auto. rewrite Vs in L.
  assert (E1 : f2r es <= b64 (f2r es + f2r nom)). { rewrite <- (f2r_fix es) at 1. apply (r_mono _ b64_rounding). lra. }
  assert (E2 : f2r nom <= b64 (f2r es + f2r nom)). { rewrite <- (f2r_fix nom) at 1. apply (r_mono _ b64_rounding). lra. }
  lra.
Qed.
Lemma quot_le : forall x n, (Z.of_nat n <= 2 ^ 50)%Z -> x <= INR n * d -> b64 (x / d) <= INR n.
Proof.
  intros x n H L. rewrite <- (b64_nat n H). apply (r_mono _ b64_rounding). pose proof zd_pos. apply (Rmult_le_reg_r d); auto. unfold Rdiv. rewrite Rmult_assoc, Rinv_l by lra. lra.
Qed.
Lemma quot_small : forall x n, (Z.of_nat n <= 2 ^ 50)%Z -> x <= 2 * (INR n * d) -> x / d <= bpow radix2 51.
Proof.
  intros x n H L. apply INR_Z in H. change (IZR (2 ^ 50)) with 1125899906842624 in H. change (bpow radix2 51) with 2251799813685248.
  pose proof zd_pos. apply (Rmult_le_reg_r d); auto. unfold Rdiv. rewrite Rmult_assoc, Rinv_l by lra.
  assert (INR n * d <= 1125899906842624 * d) by (apply Rmult_le_compat_r; lra). lra.
Qed.
Lemma quot_pos : forall x, 0 <= x -> 0 <= b64 (x / d).
Proof. intros x H. rewrite <- b64_0. apply (r_mono _ b64_rounding). apply Rmult_le_pos; auto. apply Rlt_le, Rinv_0_lt_compat, zd_pos. Qed.
(** A sample before the end of a loop up to the ceiling of [x / dT] is not past [x]. *)
Lemma before_ceil : forall x k, fin x = true -> (Z.of_nat k <= 2 ^ 50)%Z -> (Z.of_nat k < Zceil (b64 (f2r x / d)))%Z -> T d k <= f2r x.
Proof.
  intros x k F H L. pose proof zd_pos as P. rewrite <- (f2r_fix x). apply (r_mono _ b64_rounding).
  destruct (Rle_dec (INR k * d) (f2r x)) as [|K]; auto. exfalso. apply Rnot_le_lt in K.
  pose proof (quot_le (f2r x) k H ltac:(lra)) as Q. rewrite INR_IZR_INZ in Q. apply Zceil_glb in Q. lia.
Qed.
Lemma before_round : forall x k, fin x = true -> (Z.of_nat k <= 2 ^ 50)%Z -> 0 <= f2r x -> (Z.of_nat k < Rround (b64 (f2r x / d)))%Z -> T d k <= f2r x.
Proof.
  intros x k F H Hx L. apply before_ceil; auto. eapply Z.lt_le_trans; [exact L|]. apply le_IZR.
  pose proof (quot_pos (f2r x) Hx) as Q. pose proof (Rround_bounds _ Q) as [B _]. pose proof (Zceil_ub (b64 (f2r x / d))) as U.
  destruct (Z_le_gt_dec (Rround (b64 (f2r x / d))) (Zceil (b64 (f2r x / d)))) as [K|K]; [apply IZR_le; auto|].
  assert (K' : (Zceil (b64 (f2r x / d)) + 1 <= Rround (b64 (f2r x / d)))%Z) by lia. apply IZR_le in K'. rewrite plus_IZR in K'. lra.
Qed.

(** ** One phase *)
Notation zpauses := (z_pauses ieee pause mx nom es dT).
Notation lpiece := (z_local_piece ieee whole_ieee pause mx nom es dT ph).
Notation wpiece := (z_weight_piece ieee whole_ieee pause mx nom es dT ph).
Definition fine (n : nat) (r : res (list (option (f64 * f64)))) : Prop := exists out, r = Ok out /\ length out = n /\ evaluated_inside out.
Lemma fine_const : forall n, fine n (Ok (repeat None n)).
Proof. intros n. exists (repeat None n). split; auto. split; [apply repeat_length|apply inside_nil]. Qed.
Lemma excess_val : forall n, (Z.of_nat n <= 2 ^ 50)%Z -> (excess dT n <-> INR n < b64 (T d n / d)).
Proof.
  intros n H. unfold excess, lt64. destruct (fmake_nat n H) as (F & V). destruct (zdur_val n H) as (F1 & V1).
  change (zdur n) with (instant dT n) in *. pose proof (T_err50 d zd_lo n H) as E. apply Rabs_le_inv in E. pose proof zd_pos as P.
  destruct (Nat.eq_dec n 0) as [->|N0].
  - destruct (quot_ok (instant dT 0)) as (Fq & Vq & _); auto. { rewrite V1, T_0 by auto. lra. } { rewrite V1, T_0 by auto. unfold Rdiv. rewrite Rmult_0_l. apply bpow_ge_0. }
    rewrite V1 in Vq. rewrite blt_ok by auto. rewrite V, Vq. unfold Rltb. destruct (Rlt_dec _ _); split; auto; try discriminate; lra.
  - assert (N1 : 1 <= INR n) by (apply (le_INR 1); lia). assert (1 * d <= INR n * d) by (apply Rmult_le_compat_r; lra).
    destruct (quot_ok (instant dT n)) as (Fq & Vq & _); auto. { rewrite V1. apply T_pos; auto. } { rewrite V1. apply quot_small with n; auto. lra. }
    rewrite V1 in Vq. rewrite blt_ok by auto. rewrite V, Vq. unfold Rltb. destruct (Rlt_dec _ _); split; auto; try discriminate; lra.
Qed.
(** The evaluation of a spline of duration [x] up to the ceiling of [x / dT], then the constant. *)
Lemma ceil_part : forall x i e, (i < e <= length ph)%nat -> fin x = true -> 0 < f2r x -> f2r x / d <= bpow radix2 51 ->
  let r := do _ <- z_spline ieee x;
           do k <- z_while ieee ph i (a_add ieee (a_size ieee i) (w_ceil whole_ieee (a_div ieee x dT)));
           Ok (z_evals ieee dT x k ++ repeat None (e - i - k)) in
  ((Zceil (b64 (f2r x / d)) <= Z.of_nat (e - i))%Z -> fine (e - i) r)
  /\ ((Z.of_nat (length ph - i) < Zceil (b64 (f2r x / d)))%Z -> r = UB).
Proof.
  intros x i e Hie F P L. cbv zeta. rewrite spline_ok by auto. cbn [rbind]. unfold z_while. cbn [a_add a_size a_div ieee w_ceil whole_ieee].
  destruct (ceil_quot x F ltac:(lra) L) as (A & B). pose proof zn as Hn.
  destruct (quot_ok x F ltac:(lra) L) as (Q1 & Q2 & Q3). rewrite Q2 in Q3.
  set (c := Zceil (b64 (f2r x / d))) in *.
  assert (C0 : (0 <= c)%Z) by (apply ceil_pos; lra).
  assert (C1 : (c <= 2 ^ 52)%Z). { apply le_IZR. change (IZR (2 ^ 52)) with (bpow radix2 52). pose proof pow51. pose proof (Zceil_lb (b64 (f2r x / d))) as Q. fold c in Q. lra. }
  destruct (add_whole i _ c ltac:(lia) ltac:(lia) A B) as (A' & B').
  rewrite (count_ok _ (Z.of_nat i + c) A' B' (length ph - i) i) by lia. replace (Z.of_nat i + c - Z.of_nat i)%Z with c by lia. split; intros K.
  - destruct (Z.leb_spec c (Z.of_nat (length ph - i))) as [_|K']; [|lia]. cbn [rbind]. eexists. split; [reflexivity|]. split.
    + rewrite app_length, evals_len, repeat_length. lia.
    + apply inside_app; [|apply inside_nil]. apply evals_inside; auto; [lia|]. intros k Hk. apply before_ceil; auto; [lia|]. fold c. lia.
  - destruct (Z.leb_spec c (Z.of_nat (length ph - i))) as [K'|_]; [lia|]. reflexivity.
Qed.

Lemma dur_fine : forall n, (0 < n)%nat -> (Z.of_nat n <= 2 ^ 50)%Z -> fine n (do _ <- z_spline ieee (zdur n); Ok (z_evals ieee dT (zdur n) n)).
Proof.
  intros n H0 H. destruct (zdur_val n H) as (F & V). pose proof (T_lo n H0 H). rewrite spline_ok; [|auto|lra]. cbn [rbind].
  eexists. split; [reflexivity|]. split; [apply evals_len|]. apply evals_inside; auto. intros k Hk. rewrite V. apply T_mono; auto. lia.
Qed.

Lemma local_fine : forall first last p i e, (i < e <= length ph)%nat ->
  p <> SwitchOut \/ first = true \/ last = false \/ zpauses (e - i) = true \/ ~ excess dT (e - i) -> fine (e - i) (lpiece first last p i e).
Proof.
  intros first last p i e Hie H. pose proof zn as Hn. unfold z_local_piece. rewrite (sub_size_le e i) by lia.
  destruct p; try apply fine_const.
  - cbn [rbind]. apply dur_fine; lia.
  - destruct first; [apply fine_const|]. cbn [rbind]. set (n := (e - i)%nat) in *. assert (Hn' : (Z.of_nat n <= 2 ^ 50)%Z) by lia.
    assert (N1 : 1 <= INR n) by (apply (le_INR 1); lia). pose proof zd_pos as P. assert (M : 1 * d <= INR n * d) by (apply Rmult_le_compat_r; lra).
    destruct (zdur_val n Hn') as (F & V). pose proof (T_err50 d zd_lo n Hn') as E. apply Rabs_le_inv in E.
    destruct (zpauses n) eqn:Ep.
    + destruct (pauses_inv n Hn' Ep) as (P1 & P2 & _). destruct (zl_es _ _ _ _ _ _ lim P1) as (Fe & _).
      apply (ceil_part es i e Hie Fe ltac:(lra)); [apply quot_small with n; auto; destruct P2; lra|].
      apply Zceil_glb. rewrite <- INR_IZR_INZ. fold n. apply quot_le; auto. lra.
    + destruct last.
      * apply (ceil_part (zdur n) i e Hie F); [rewrite V; lra|rewrite V; apply quot_small with n; auto; lra|].
        rewrite V. apply Zceil_glb. rewrite <- INR_IZR_INZ. fold n.
        destruct H as [H|[H|[H|[H|H]]]]; try discriminate; [congruence|]. rewrite excess_val in H by auto. lra.
      * cbn [a_div a_q ieee]. destruct (q1_ok 2 ltac:(lia)) as (F2 & V2). cbn [a_q ieee] in F2, V2.
        set (x := fdiv (zdur n) (fdiv (fmake 2 0) (fmake 1 0))).
        pose proof (T_hi d zd_lo zd_hi n Hn') as Th.
        destruct (fdiv_ok (zdur n) (fdiv (fmake 2 0) (fmake 1 0)) F) as (A & B). { rewrite V2. lra. }
        { rewrite V, V2. rewrite Rabs_pos_eq by lra. pose proof (pow961_top 960 ltac:(lia)). lra. }
        fold x in A, B. rewrite V, V2 in B.
        assert (E2 : Rabs (b64 (T d n / 2) - T d n / 2) <= u64 * (T d n / 2) + eta64) by (apply b64_near; rewrite Rabs_pos_eq; lra).
        apply Rabs_le_inv in E2. rewrite <- B in E2. pose proof (eta_d2 d zd_lo) as Et. rewrite u64_val in E2.
        assert (X1 : 0 < f2r x) by lra. assert (X2 : f2r x <= INR n * d) by lra.
        apply (ceil_part x i e Hie A X1); [apply quot_small with n; auto; lra|].
        apply Zceil_glb. rewrite <- INR_IZR_INZ. fold n. apply quot_le; auto.
Qed.
Lemma local_overrun : forall i, (i < length ph)%nat -> zpauses (length ph - i) = false -> excess dT (length ph - i) ->
  lpiece false true SwitchOut i (length ph) = UB.
Proof.
  intros i Hi Ep H. pose proof zn as Hn. unfold z_local_piece. rewrite (sub_size_le (length ph) i) by lia. cbn [rbind].
  set (n := (length ph - i)%nat) in *. assert (Hn' : (Z.of_nat n <= 2 ^ 50)%Z) by lia. rewrite Ep.
  assert (N1 : 1 <= INR n) by (apply (le_INR 1); lia). pose proof zd_pos as P. assert (M : 1 * d <= INR n * d) by (apply Rmult_le_compat_r; lra).
  destruct (zdur_val n Hn') as (F & V). pose proof (T_err50 d zd_lo n Hn') as E. apply Rabs_le_inv in E.
  apply (ceil_part (zdur n) i (length ph) ltac:(lia) F); [rewrite V; lra|rewrite V; apply quot_small with n; auto; lra|].
  fold n. rewrite V. rewrite excess_val in H by auto. rewrite INR_IZR_INZ in H. pose proof (Zceil_ub (b64 (T d n / d))) as U. apply lt_IZR. lra.
Qed.

Lemma weight_fine : forall first last p i e, (i < e <= length ph)%nat -> (last = false -> (e < length ph)%nat) ->
  (wpiece first last p i e = Fail \/ fine (e - i) (wpiece first last p i e))
  /\ ((zpauses (e - i) = true -> d <= f2r nom) -> fine (e - i) (wpiece first last p i e)).
Proof.
  intros first last p i e Hie Hl. pose proof zn as Hn.
  assert (Main : (p = SwitchIn \/ p = SwitchOut) -> (wpiece first last p i e = Fail \/ fine (e - i) (wpiece first last p i e))
    /\ ((zpauses (e - i) = true -> d <= f2r nom) -> fine (e - i) (wpiece first last p i e))).
  { intros Hp. assert (Ew : wpiece first last p i e = wpiece first last SwitchIn i e) by (destruct Hp as [->| ->]; reflexivity). rewrite Ew. clear Ew Hp.
    unfold z_weight_piece. rewrite (sub_size_le e i) by lia. cbn [rbind]. set (n := (e - i)%nat) in *. assert (Hn' : (Z.of_nat n <= 2 ^ 50)%Z) by lia.
    assert (Rest : forall pre, evaluated_inside pre -> (length pre <= n)%nat ->
      let r := do _ <- (if last then Ok tt else match nth_error ph (i + length pre) with None => UB | Some _ => Ok tt end);
               do m <- sub_size n (length pre); do _ <- z_spline ieee (zdur m); Ok (pre ++ z_evals ieee dT (zdur m) m) in
      (r = Fail \/ fine n r) /\ ((length pre < n)%nat -> fine n r)).
    { intros pre Hi Hpre. cbv zeta.
      assert (E0 : (if last then Ok tt else match nth_error ph (i + length pre) with None => UB | Some _ => Ok tt end) = Ok tt).
      { destruct last; auto. specialize (Hl eq_refl). destruct (nth_error ph (i + length pre)) eqn:En; auto. apply nth_error_None in En. lia. }
      rewrite E0. cbn [rbind]. rewrite (sub_size_le n (length pre)) by lia. cbn [rbind].
      assert (K : (length pre < n)%nat -> fine n (do _ <- z_spline ieee (zdur (n - length pre)); Ok (pre ++ z_evals ieee dT (zdur (n - length pre)) (n - length pre)))).
      { intros L. destruct (dur_fine (n - length pre) ltac:(lia) ltac:(lia)) as (out & O1 & O2 & O3).
        destruct (z_spline ieee (zdur (n - length pre))); cbn [rbind] in *; try discriminate.
        assert (Eo : z_evals ieee dT (zdur (n - length pre)) (n - length pre) = out) by congruence. rewrite Eo.
        eexists. split; [reflexivity|]. split; [rewrite app_length, O2; lia|apply inside_app; auto]. }
      split; auto. destruct (Nat.eq_dec (length pre) n) as [En|En]; [|right; apply K; lia]. left. rewrite En, Nat.sub_diag.
      destruct (zdur_val 0 ltac:(cbn; lia)) as (F & V). rewrite T_0 in V by auto. unfold z_spline. cbn [a_eq ieee].
      rewrite c0_zero, beq_ok by auto. rewrite V. change (f2r fzero) with 0. unfold Reqb. destruct (Req_EM_T 0 0); [reflexivity|lra]. }
    destruct (zpauses n) eqn:Ep.
    - destruct (pauses_inv n Hn' Ep) as (P1 & P2 & P3 & P4). destruct (zl_es _ _ _ _ _ _ lim P1) as (Fe & _). destruct (zl_nom _ _ _ _ _ _ lim P1) as (Fn & _).
      rewrite spline_ok; [|auto|lra]. cbn [rbind]. unfold z_while. cbn [a_add a_sub a_size a_div ieee w_round whole_ieee].
      destruct (round_quot es Fe ltac:(lra)) as (A & B); [apply quot_small with n; auto; lra|].
      destruct (round_quot nom Fn ltac:(lra)) as (A2 & B2); [apply quot_small with n; auto; lra|].
      pose proof (quot_pos (f2r es) ltac:(lra)) as Q0. pose proof (quot_pos (f2r nom) ltac:(lra)) as Q0'.
      pose proof (quot_le (f2r es) n Hn' ltac:(lra)) as Q1. pose proof (quot_le (f2r nom) n Hn' ltac:(lra)) as Q1'.
      assert (R1 : (0 <= Rround (b64 (f2r es / d)) <= Z.of_nat n)%Z).
      { split; [apply Rround_nonneg; auto|]. rewrite <- (Rround_IZR (Z.of_nat n)) by lia. apply Rround_mono. rewrite <- INR_IZR_INZ. lra. }
      assert (R2 : (0 <= Rround (b64 (f2r nom / d)) <= Z.of_nat n)%Z).
      { split; [apply Rround_nonneg; auto|]. rewrite <- (Rround_IZR (Z.of_nat n)) by lia. apply Rround_mono. rewrite <- INR_IZR_INZ. lra. }
      set (r1 := Rround (b64 (f2r es / d))) in *. set (r2 := Rround (b64 (f2r nom / d))) in *.
      destruct (add_whole i _ r1 ltac:(lia) ltac:(lia) A B) as (A' & B').
      rewrite (count_ok _ (Z.of_nat i + r1) A' B' (length ph - i) i) by lia. replace (Z.of_nat i + r1 - Z.of_nat i)%Z with r1 by lia.
      destruct (Z.leb_spec r1 (Z.of_nat (length ph - i))) as [_|K']; [|lia]. cbn [rbind].
      destruct (sub_whole e _ r2 ltac:(lia) ltac:(lia) A2 B2) as (A'' & B'').
      rewrite (count_ok _ (Z.of_nat e - r2) A'' B'' _ (i + Z.to_nat r1)) by lia.
      destruct (Z.leb_spec (Z.of_nat e - r2 - Z.of_nat (i + Z.to_nat r1)) (Z.of_nat (length ph - (i + Z.to_nat r1)))) as [_|K']; [|lia]. cbn [rbind].
      set (k' := Z.to_nat (Z.of_nat e - r2 - Z.of_nat (i + Z.to_nat r1))).
      set (pre := z_evals ieee dT es (Z.to_nat r1) ++ repeat None k').
      assert (Lp : @length (option (f64 * f64)) pre = (Z.to_nat r1 + k')%nat) by (unfold pre; rewrite app_length, evals_len, repeat_length; reflexivity).
      destruct (Rest pre) as (G1 & G2).
      + apply inside_app; [|apply inside_nil]. apply evals_inside; auto; [lia|]. intros k Hk. apply before_round; auto; [lia|lra|]. fold r1. lia.
      + rewrite Lp. unfold k'. lia.
      + split; auto. intros Hnom. apply G2. specialize (Hnom eq_refl). rewrite Lp. unfold k'.
        assert (r2 >= 1)%Z.
        { assert (W : 1 <= b64 (f2r nom / d)).
          { rewrite <- (b64_fix 1) by (replace 1 with (IZR 1 * bpow radix2 0) by (cbn; ring); apply is_b64_dyadic; lia).
            apply (r_mono _ b64_rounding). pose proof zd_pos. apply (Rmult_le_reg_r d); auto. unfold Rdiv. rewrite Rmult_assoc, Rinv_l by lra. lra. }
          pose proof (Rround_mono 1 (b64 (f2r nom / d)) ltac:(lra)) as W2. rewrite (Rround_IZR 1) in W2 by lia. fold r2 in W2. lia. }
        assert (r1 < Z.of_nat n)%Z.
        { apply lt_IZR. rewrite <- INR_IZR_INZ. pose proof zd_pos as P. pose proof (eta_d2 d zd_lo) as Et.
          pose proof (INR_Z n _ Hn') as Nb. change (IZR (2 ^ 50)) with 1125899906842624 in Nb.
          assert (Nd : INR n * d <= 1125899906842624 * d) by (apply Rmult_le_compat_r; lra).
          assert (E1 : Rabs (b64 (f2r es + f2r nom) - (f2r es + f2r nom)) <= u64 * (f2r es + f2r nom) + eta64) by (apply b64_near; rewrite Rabs_pos_eq; lra).
          apply Rabs_le_inv in E1. rewrite u64_val in E1.
          assert (Es : f2r es <= INR n * d - d + d / 7) by lra.
          set (q := f2r es / d) in *. assert (Eq : f2r es = q * d) by (unfold q; field; lra).
          assert (Qn : q <= INR n - 1 + / 7). { apply (Rmult_le_reg_r d); auto. lra. }
          assert (Q2 : 0 <= q) by (unfold q; apply Rmult_le_pos; [lra|apply Rlt_le, Rinv_0_lt_compat; lra]).
          assert (E2 : Rabs (b64 q - q) <= u64 * q + eta64) by (apply b64_near; rewrite Rabs_pos_eq; lra).
          apply Rabs_le_inv in E2. rewrite u64_val in E2.
          assert (Et2 : eta64 <= / 1000). { unfold eta64. pose proof (bpow_le radix2 (-1074) (-10) ltac:(lia)) as K. change (bpow radix2 (-10)) with (/ 1024) in K. lra. }
          pose proof (Rround_bounds (b64 q) Q0) as B3. fold r1 in B3. lra. }
        lia.
    - cbn [rbind]. destruct (Rest []) as (G1 & G2); [intros t x []|cbn; lia|]. split; auto. intros _. apply G2. cbn [length]. lia. }
  destruct p; try (apply Main; auto; fail); unfold z_weight_piece; (split; [right|intros _]; apply fine_const).
Qed.
End Z.
