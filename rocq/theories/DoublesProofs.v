(** Facts about binary64 operations and comparisons (Flocq). *)
From Coq Require Import String Reals ZArith List Bool Lia Lra.
From Flocq Require Import Core IEEE754.BinarySingleNaN.
From Verif Require Import Prelude Rounding FootPrint GenPhases RoundedGen RoundedGenSpec RoundedGenProofs2 RoundedGenProofs3
  Doubles DoublesGen DoublesSpec.
Import ListNotations.
Open Scope R_scope.

(** The largest double. *)
Definition top : R := bpow radix2 1024 - bpow radix2 971.
Lemma top_lt : top < bpow radix2 1024.
Proof. unfold top. pose proof (bpow_gt_0 radix2 971). lra. Qed.
Lemma top_b64 : is_b64 top.
Proof.
  unfold top. replace (bpow radix2 1024 - bpow radix2 971) with (IZR (2 ^ 53 - 1) * bpow radix2 971).
  - apply is_b64_dyadic; lia.
  - rewrite minus_IZR. change (IZR (2 ^ 53)) with (bpow radix2 53). rewrite Rmult_minus_distr_r, <- bpow_plus. simpl (53 + 971)%Z. ring.
Qed.
Lemma b64_top : b64 top = top.
Proof. apply b64_fix, top_b64. Qed.
Lemma pow_top : bpow radix2 1023 <= top.
Proof.
  unfold top. replace (bpow radix2 1024) with (2 * bpow radix2 1023) by (change 2 with (bpow radix2 1); rewrite <- bpow_plus; reflexivity).
  assert (bpow radix2 971 <= bpow radix2 1023) by (apply bpow_le; lia). lra.
Qed.
Lemma b64_abs : forall x B, b64 B = B -> Rabs x <= B -> Rabs (b64 x) <= B.
Proof.
  intros x B E H.
  assert (H' : - B <= x <= B) by (apply Rabs_le_inv; auto).
  apply Rabs_le. split.
  - rewrite <- E. rewrite <- (r_opp _ b64_rounding). apply (r_mono _ b64_rounding). lra.
  - rewrite <- E. apply (r_mono _ b64_rounding). lra.
Qed.
Lemma b64_eq : forall x, b64 x = round radix2 (SpecFloat.fexp 53 1024) (round_mode mode_NE) x.
Proof. reflexivity. Qed.
Lemma f2r_b64 : forall x, is_b64 (f2r x).
Proof. intros x. apply (generic_format_B2R 53 1024). Qed.
Lemma f2r_fix : forall x, b64 (f2r x) = f2r x.
Proof. intros x. apply b64_fix, f2r_b64. Qed.
Lemma f2r_lt : forall x, Rabs (f2r x) < bpow radix2 1024.
Proof. intros x. apply (abs_B2R_lt_emax 53 1024). Qed.

(** [Rlt_bool] and friends are the comparisons of the model. *)
Lemma rltb_eq : forall x y, Rlt_bool x y = Rltb x y.
Proof. intros. destruct (Rlt_bool_spec x y); rcases; auto; lra. Qed.
Lemma rleb_eq : forall x y, Rle_bool x y = Rleb x y.
Proof. intros. destruct (Rle_bool_spec x y); rcases; auto; lra. Qed.
Lemma reqb_eq : forall x y, Req_bool x y = Reqb x y.
Proof. intros. destruct (Req_bool_spec x y); rcases; auto; lra. Qed.

Lemma small_ok : forall x, Rabs x <= top -> Rlt_bool (Rabs (b64 x)) (bpow radix2 1024) = true.
Proof. intros x H. apply Rlt_bool_true. apply Rle_lt_trans with top; [|apply top_lt]. apply b64_abs; auto. apply b64_top. Qed.

(** Operations that stay below [top]. *)
Lemma fadd_ok : forall x y, fin x = true -> fin y = true -> Rabs (f2r x + f2r y) <= top ->
  fin (fadd x y) = true /\ f2r (fadd x y) = b64 (f2r x + f2r y).
Proof.
  intros x y Hx Hy H. pose proof (Bplus_correct 53 1024 prec64 emax64 mode_NE x y Hx Hy) as Q.
  rewrite <- !b64_eq in Q. change (B2R x) with (f2r x) in Q. change (B2R y) with (f2r y) in Q.
  rewrite small_ok in Q by auto. destruct Q as (Q1 & Q2 & _). auto.
Qed.
Lemma fsub_ok : forall x y, fin x = true -> fin y = true -> Rabs (f2r x - f2r y) <= top ->
  fin (fsub x y) = true /\ f2r (fsub x y) = b64 (f2r x - f2r y).
Proof.
  intros x y Hx Hy H. pose proof (Bminus_correct 53 1024 prec64 emax64 mode_NE x y Hx Hy) as Q.
  rewrite <- !b64_eq in Q. change (B2R x) with (f2r x) in Q. change (B2R y) with (f2r y) in Q.
  rewrite small_ok in Q by auto. destruct Q as (Q1 & Q2 & _). auto.
Qed.
Lemma fmul_ok : forall x y, fin x = true -> fin y = true -> Rabs (f2r x * f2r y) <= top ->
  fin (fmul x y) = true /\ f2r (fmul x y) = b64 (f2r x * f2r y).
Proof.
  intros x y Hx Hy H. pose proof (Bmult_correct 53 1024 prec64 emax64 mode_NE x y) as Q.
  rewrite <- !b64_eq in Q. change (B2R x) with (f2r x) in Q. change (B2R y) with (f2r y) in Q.
  rewrite small_ok in Q by auto. destruct Q as (Q1 & Q2 & _). split; [|exact Q1].
  unfold fin in *. change (is_finite (fmul x y) = true). unfold fmul. rewrite Q2, Hx, Hy. auto.
Qed.
Lemma fdiv_ok : forall x y, fin x = true -> f2r y <> 0 -> Rabs (f2r x / f2r y) <= top ->
  fin (fdiv x y) = true /\ f2r (fdiv x y) = b64 (f2r x / f2r y).
Proof.
  intros x y Hx Hy H. pose proof (Bdiv_correct 53 1024 prec64 emax64 mode_NE x y Hy) as Q.
  rewrite <- !b64_eq in Q. change (B2R x) with (f2r x) in Q. change (B2R y) with (f2r y) in Q.
  rewrite small_ok in Q by auto. destruct Q as (Q1 & Q2 & _). split; [|exact Q1].
  unfold fin in *. unfold fdiv. rewrite Q2, Hx. auto.
Qed.
Lemma fmake_ok : forall m e, Rabs (F2R (Float radix2 m e)) <= top ->
  fin (fmake m e) = true /\ f2r (fmake m e) = b64 (F2R (Float radix2 m e)).
Proof.
  intros m e H. pose proof (binary_normalize_correct 53 1024 prec64 emax64 mode_NE m e false) as Q. cbv zeta in Q.
  rewrite <- !b64_eq in Q. rewrite small_ok in Q by auto. destruct Q as (Q1 & Q2 & _). auto.
Qed.
(** Without a bound, finite results are the rounded exact results. *)
Lemma not_fin : forall (x : f64) s, B2SF x = binary_overflow 53 1024 mode_NE s -> fin x = false /\ x = B754_infinity s.
Proof.
  intros x s H. unfold binary_overflow in H. simpl in H. destruct x; simpl in H; try discriminate. inversion H. auto.
Qed.
Lemma fadd_fin : forall x y, fin x = true -> fin y = true -> fin (fadd x y) = true -> f2r (fadd x y) = b64 (f2r x + f2r y).
Proof.
  intros x y Hx Hy H. pose proof (Bplus_correct 53 1024 prec64 emax64 mode_NE x y Hx Hy) as Q.
  destruct (Rlt_bool _ _); [apply Q|]. destruct Q as (Q & _). apply not_fin in Q. destruct Q as (Q & _). unfold fadd in H. congruence.
Qed.
Lemma fmul_fin : forall x y, fin (fmul x y) = true -> f2r (fmul x y) = b64 (f2r x * f2r y).
Proof.
  intros x y H. pose proof (Bmult_correct 53 1024 prec64 emax64 mode_NE x y) as Q.
  destruct (Rlt_bool _ _); [apply Q|]. apply not_fin in Q. destruct Q as (Q & _). unfold fmul in H. congruence.
Qed.
Lemma fdiv_fin : forall x y, f2r y <> 0 -> fin (fdiv x y) = true -> f2r (fdiv x y) = b64 (f2r x / f2r y).
Proof.
  intros x y Hy H. pose proof (Bdiv_correct 53 1024 prec64 emax64 mode_NE x y Hy) as Q.
  destruct (Rlt_bool _ _); [apply Q|]. apply not_fin in Q. destruct Q as (Q & _). unfold fdiv in H. congruence.
Qed.

(** Comparisons of finite doubles. *)
Lemma blt_ok : forall x y : f64, fin x = true -> fin y = true -> Bltb x y = Rltb (f2r x) (f2r y).
Proof. intros. rewrite <- rltb_eq. apply Bltb_correct; auto. Qed.
Lemma ble_ok : forall x y : f64, fin x = true -> fin y = true -> Bleb x y = Rleb (f2r x) (f2r y).
Proof. intros. rewrite <- rleb_eq. apply Bleb_correct; auto. Qed.
Lemma beq_ok : forall x y : f64, fin x = true -> fin y = true -> Beqb x y = Reqb (f2r x) (f2r y).
Proof. intros. rewrite <- reqb_eq. apply Beqb_correct; auto. Qed.

(** Comparisons of all numbers: infinities are put at the ends. *)
Definition key (x : f64) : R :=
  match x with B754_infinity s => if s then - bpow radix2 1024 else bpow radix2 1024 | _ => f2r x end.
Lemma key_fin : forall x, fin x = true -> key x = f2r x.
Proof. intros [s|s| |s m e H] F; auto; discriminate. Qed.
Lemma fin_number : forall x, fin x = true -> number x.
Proof. intros x H ->. discriminate. Qed.
Lemma number_cases : forall x, number x -> fin x = true \/ x = finf \/ x = B754_infinity true.
Proof. intros [s|s| |s m e H] N; [auto| |contradiction N; auto|auto]. right. destruct s; auto. Qed.
Lemma fin_key : forall x, fin x = true -> - bpow radix2 1024 < key x < bpow radix2 1024.
Proof. intros x F. rewrite key_fin by auto. pose proof (f2r_lt x). apply Rabs_def2 in H. lra. Qed.
Lemma inf_pos : 0 < bpow radix2 1024.
Proof. apply bpow_gt_0. Qed.
Ltac keycase x F :=
  match goal with H : number x |- _ =>
    let Q := fresh in destruct (number_cases x H) as [F|Q]; [|destruct Q as [Q|Q]; subst x] end.
Lemma blt_key : forall x y : f64, number x -> number y -> Bltb x y = Rltb (key x) (key y).
Proof.
  intros x y Hx Hy. pose proof inf_pos. keycase x Fx; keycase y Fy.
  - rewrite blt_ok, !key_fin; auto.
  - pose proof (fin_key x Fx). unfold key at 2. unfold finf at 2. rcases; try lra. destruct x; try discriminate; auto; destruct s; auto.
  - pose proof (fin_key x Fx). unfold key at 2. rcases; try lra. destruct x; try discriminate; auto; destruct s; auto.
  - pose proof (fin_key y Fy). unfold key at 1. unfold finf at 2. rcases; try lra. destruct y; try discriminate; auto; destruct s; auto.
  - simpl. rcases; auto; lra.
  - simpl. rcases; auto; lra.
  - pose proof (fin_key y Fy). unfold key at 1. rcases; try lra. destruct y; try discriminate; auto; destruct s; auto.
  - simpl. rcases; auto; lra.
  - simpl. rcases; auto; lra.
Qed.
Lemma ble_key : forall x y : f64, number x -> number y -> Bleb x y = Rleb (key x) (key y).
Proof.
  intros x y Hx Hy. pose proof inf_pos. keycase x Fx; keycase y Fy.
  - rewrite ble_ok, !key_fin; auto.
  - pose proof (fin_key x Fx). unfold key at 2. unfold finf at 2. rcases; try lra. destruct x; try discriminate; auto; destruct s; auto.
  - pose proof (fin_key x Fx). unfold key at 2. rcases; try lra. destruct x; try discriminate; auto; destruct s; auto.
  - pose proof (fin_key y Fy). unfold key at 1. unfold finf at 2. rcases; try lra. destruct y; try discriminate; auto; destruct s; auto.
  - simpl. rcases; auto; lra.
  - simpl. rcases; auto; lra.
  - pose proof (fin_key y Fy). unfold key at 1. rcases; try lra. destruct y; try discriminate; auto; destruct s; auto.
  - simpl. rcases; auto; lra.
  - simpl. rcases; auto; lra.
Qed.
Lemma beq_key : forall x y : f64, number x -> number y -> Beqb x y = Reqb (key x) (key y).
Proof.
  intros x y Hx Hy. pose proof inf_pos. keycase x Fx; keycase y Fy.
  - rewrite beq_ok, !key_fin; auto.
  - pose proof (fin_key x Fx). unfold key at 2. unfold finf at 2. rcases; try lra. destruct x; try discriminate; auto; destruct s; auto.
  - pose proof (fin_key x Fx). unfold key at 2. rcases; try lra. destruct x; try discriminate; auto; destruct s; auto.
  - pose proof (fin_key y Fy). unfold key at 1. unfold finf at 2. rcases; try lra. destruct y; try discriminate; auto; destruct s; auto.
  - simpl. rcases; auto; lra.
  - simpl. rcases; auto; lra.
  - pose proof (fin_key y Fy). unfold key at 1. rcases; try lra. destruct y; try discriminate; auto; destruct s; auto.
  - simpl. rcases; auto; lra.
  - simpl. rcases; auto; lra.
Qed.
Lemma le64_key : forall x y, number x -> number y -> key x <= key y -> le64 x y.
Proof. intros. unfold le64. rewrite ble_key by auto. rcases; auto; lra. Qed.
Lemma lt64_key : forall x y, number x -> number y -> key x < key y -> lt64 x y.
Proof. intros. unfold lt64. rewrite blt_key by auto. rcases; auto; lra. Qed.
(** Comparisons with NaN fail. *)
Lemma blt_nan : forall x : f64, Bltb fnan x = false /\ Bltb x fnan = false.
Proof. intros x. split; destruct x; auto; destruct s; auto. Qed.
Lemma ble_nan : forall x : f64, Bleb fnan x = false /\ Bleb x fnan = false.
Proof. intros x. split; destruct x; auto; destruct s; auto. Qed.
Lemma beq_nan : forall x : f64, Beqb fnan x = false /\ Beqb x fnan = false.
Proof. intros x. split; destruct x; auto; destruct s; auto. Qed.
Lemma le64_number : forall x y, le64 x y -> number x /\ number y.
Proof.
  intros x y H. unfold le64 in H. destruct (ble_nan x), (ble_nan y). split; intros E; subst; congruence.
Qed.
Lemma lt64_number : forall x y, lt64 x y -> number x /\ number y.
Proof.
  intros x y H. unfold lt64 in H. destruct (blt_nan x), (blt_nan y). split; intros E; subst; congruence.
Qed.
Lemma le64_inv : forall x y, le64 x y -> key x <= key y.
Proof. intros x y H. destruct (le64_number _ _ H). unfold le64 in H. rewrite ble_key in H by auto. rcasesh H; auto; discriminate. Qed.
Lemma lt64_inv : forall x y, lt64 x y -> key x < key y.
Proof. intros x y H. destruct (lt64_number _ _ H). unfold lt64 in H. rewrite blt_key in H by auto. rcasesh H; auto; discriminate. Qed.

(** Literals. *)
Lemma F2R_int : forall m, F2R (Float radix2 m 0) = IZR m.
Proof. intros m. unfold F2R. simpl. lra. Qed.
Lemma int_top : forall m, (Z.abs m <= 2 ^ 1023)%Z -> Rabs (IZR m) <= top.
Proof. intros m H. rewrite <- abs_IZR. apply Rle_trans with (bpow radix2 1023); [|apply pow_top]. rewrite <- IZR_Zpower by lia. apply IZR_le. exact H. Qed.
Lemma fmake_int : forall m, (Z.abs m <= 2 ^ 1023)%Z -> fin (fmake m 0) = true /\ f2r (fmake m 0) = b64 (IZR m).
Proof. intros m H. rewrite <- F2R_int. apply fmake_ok. rewrite F2R_int. apply int_top; auto. Qed.
Lemma fmake_exact : forall m, (Z.abs m <= 2 ^ 53)%Z -> fin (fmake m 0) = true /\ f2r (fmake m 0) = IZR m.
Proof.
  intros m H. destruct (fmake_int m) as (A & B).
  - apply Z.le_trans with (2 ^ 53)%Z; auto. apply Z.pow_le_mono_r; lia.
  - split; auto. rewrite B. apply b64_fix, is_b64_int; auto.
Qed.
Lemma q_ok : forall p q, (Z.abs p <= 2 ^ 53)%Z -> (0 < q <= 2 ^ 53)%Z ->
  fin (a_q ieee p q) = true /\ f2r (a_q ieee p q) = b64 (IZR p / IZR q).
Proof.
  intros p q Hp Hq. simpl. destruct (fmake_exact p Hp) as (A & B). destruct (fmake_exact q) as (C & D); [lia|].
  assert (0 < IZR q) by (apply IZR_lt; lia). assert (1 <= IZR q) by (apply IZR_le; lia).
  rewrite <- B, <- D. apply fdiv_ok; auto; rewrite D; [lra|]. rewrite B.
  unfold Rdiv. rewrite Rabs_mult. apply Rle_trans with (Rabs (IZR p) * 1).
  - apply Rmult_le_compat_l; [apply Rabs_pos|]. rewrite Rabs_pos_eq by (apply Rlt_le, Rinv_0_lt_compat; auto).
    rewrite <- Rinv_1. apply Rinv_le_contravar; lra.
  - rewrite Rmult_1_r. apply int_top. apply Z.le_trans with (2 ^ 53)%Z; auto. apply Z.pow_le_mono_r; lia.
Qed.
Lemma q1_ok : forall p, (Z.abs p <= 2 ^ 53)%Z -> fin (a_q ieee p 1) = true /\ f2r (a_q ieee p 1) = IZR p.
Proof.
  intros p H. destruct (q_ok p 1) as (A & B); [auto|lia|]. split; auto. rewrite B. replace (IZR p / IZR 1) with (IZR p) by (simpl; field).
  apply b64_fix, is_b64_int; auto.
Qed.
Lemma c0_zero : c0 ieee = fzero.
Proof. reflexivity. Qed.
Lemma same_f64 : forall x y : f64, B2SF x = B2SF y -> x = y.
Proof. intros. apply B2SF_inj; auto. Qed.
Lemma c1_one : c1 ieee = f1.
Proof. apply same_f64. vm_compute. reflexivity. Qed.
Lemma f1_ok : fin f1 = true /\ f2r f1 = 1.
Proof. apply (fmake_exact 1). lia. Qed.
Lemma fm1_ok : fin fm1 = true /\ f2r fm1 = -1.
Proof. apply (fmake_exact (-1)). lia. Qed.
Lemma fzero_ok : fin fzero = true /\ f2r fzero = 0.
Proof. auto. Qed.
Lemma key_0 : key fzero = 0. Proof. reflexivity. Qed.
Lemma key_1 : key f1 = 1. Proof. rewrite key_fin; apply f1_ok. Qed.
