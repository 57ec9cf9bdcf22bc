(** The phase computation in doubles, executable: rounding to an integer by integer arithmetic.  Only used to run
    examples; [exec_ok] says that it is the model of DoublesGen.v. *)
From Coq Require Import String Reals ZArith List Bool Lia Lra FunctionalExtensionality.
From Flocq Require Import Core IEEE754.BinarySingleNaN.
From Verif Require Import Prelude Rounding GenPhases RoundedGen Doubles DoublesGen.
Import ListNotations.
Open Scope R_scope.

(** Nearest integer, halves away from zero, and ceiling of [m * 2^e]. *)
Definition zround (m e : Z) : Z :=
  if Z.leb 0 e then (m * 2 ^ e)%Z
  else let d := (2 ^ (- e))%Z in if Z.ltb m 0 then (- ((- 2 * m + d) / (2 * d)))%Z else ((2 * m + d) / (2 * d))%Z.
Definition zceil (m e : Z) : Z :=
  if Z.leb 0 e then (m * 2 ^ e)%Z else (- ((- m) / 2 ^ (- e)))%Z.
Definition fround_x (x : f64) : res nat :=
  match x with
  | B754_zero _ => Ok 0%nat
  | B754_finite s m e _ => to_size64 (zround (cond_Zopp s (Zpos m)) e)
  | _ => UB
  end.
Definition fceil_x (x : f64) : res nat :=
  match x with
  | B754_zero _ => Ok 0%nat
  | B754_finite s m e _ => to_size64 (zceil (cond_Zopp s (Zpos m)) e)
  | _ => UB
  end.

Lemma zfloor_div : forall a d, (0 < d)%Z -> Zfloor (IZR a / IZR d) = (a / d)%Z.
Proof. intros. apply Zfloor_div. lia. Qed.
Lemma zround_ok : forall m e, Rround (IZR m * bpow radix2 e) = zround m e.
Proof.
  intros m e. unfold zround, Rround. destruct (Z.leb_spec 0 e) as [He|He].
  - replace (IZR m * bpow radix2 e) with (IZR (m * 2 ^ e)) by (rewrite mult_IZR, <- IZR_Zpower by auto; reflexivity).
    destruct (Rlt_dec _ 0).
    + rewrite <- opp_IZR. replace (IZR (- (m * 2 ^ e)) + / 2) with (/ 2 + IZR (- (m * 2 ^ e))) by ring.
      rewrite (Zfloor_imp (- (m * 2 ^ e))); [lia|]. rewrite plus_IZR. lra.
    + rewrite (Zfloor_imp (m * 2 ^ e)); [lia|]. rewrite plus_IZR. lra.
  - set (d := (2 ^ (- e))%Z). assert (Hd : (0 < d)%Z) by (apply Z.pow_pos_nonneg; lia).
    assert (E : bpow radix2 e = / IZR d).
    { subst d. replace e with (- (- e))%Z at 1 by lia. rewrite bpow_opp. f_equal. rewrite <- IZR_Zpower by lia. reflexivity. }
    rewrite E. assert (Pd : 0 < IZR d) by (apply (IZR_lt 0); auto).
    destruct (Z.ltb_spec m 0) as [Hm|Hm].
    + destruct (Rlt_dec _ 0) as [_|K].
      * f_equal. rewrite <- zfloor_div by lia. f_equal. rewrite plus_IZR, !mult_IZR. field. lra.
      * exfalso. apply K. apply (IZR_lt m 0) in Hm. apply (Rmult_lt_reg_r (IZR d)); auto. rewrite Rmult_assoc, Rinv_l by lra. lra.
    + destruct (Rlt_dec _ 0) as [K|_].
      * exfalso. apply (IZR_le 0) in Hm. apply (Rmult_lt_compat_r (IZR d)) in K; auto. rewrite Rmult_assoc, Rinv_l in K by lra. lra.
      * rewrite <- zfloor_div by lia. f_equal. rewrite plus_IZR, !mult_IZR. field. lra.
Qed.
Lemma zceil_ok : forall m e, Zceil (IZR m * bpow radix2 e) = zceil m e.
Proof.
  intros m e. unfold zceil, Zceil. destruct (Z.leb_spec 0 e) as [He|He].
  - replace (IZR m * bpow radix2 e) with (IZR (m * 2 ^ e)) by (rewrite mult_IZR, <- IZR_Zpower by auto; reflexivity).
    rewrite <- opp_IZR, Zfloor_IZR. lia.
  - set (d := (2 ^ (- e))%Z). assert (Hd : (0 < d)%Z) by (apply Z.pow_pos_nonneg; lia).
    assert (E : bpow radix2 e = / IZR d).
    { subst d. replace e with (- (- e))%Z at 1 by lia. rewrite bpow_opp. f_equal. rewrite <- IZR_Zpower by lia. reflexivity. }
    rewrite E. f_equal. rewrite <- zfloor_div by auto. f_equal. rewrite opp_IZR. unfold Rdiv. ring.
Qed.
Lemma fround_ok : forall x, fround_x x = fround x.
Proof.
  intros [s|s| |s m e H]; try reflexivity.
  - unfold fround, f2r, fin. cbn [is_finite B2R fround_x]. replace (Rround 0) with 0%Z; [reflexivity|].
    replace 0 with (IZR 0 * bpow radix2 0) by ring. rewrite zround_ok. reflexivity.
  - unfold fround, f2r, fin. cbn [is_finite B2R fround_x]. unfold F2R. cbn [Fnum Fexp]. rewrite zround_ok. reflexivity.
Qed.
Lemma fceil_ok : forall x, fceil_x x = fceil x.
Proof.
  intros [s|s| |s m e H]; try reflexivity.
  - unfold fceil, f2r, fin. cbn [is_finite B2R fceil_x]. rewrite (Zceil_IZR 0). reflexivity.
  - unfold fceil, f2r, fin. cbn [is_finite B2R fceil_x]. unfold F2R. cbn [Fnum Fexp]. rewrite zceil_ok. reflexivity.
Qed.

Definition exec : arith f64 :=
  MkArith f64 (@Bltb 53 1024) (@Bleb 53 1024) (@Beqb 53 1024) fadd fsub fmul fdiv (@Babs 53 1024)
    (fun p q => fdiv (fmake p 0) (fmake q 0)) fpi (fun n => fmake (Z.of_nat n) 0) fround_x fceil_x.
Lemma exec_ok : ieee = exec.
Proof.
  unfold ieee, exec. f_equal; apply functional_extensionality; intros; symmetry; [apply fround_ok|apply fceil_ok].
Qed.
