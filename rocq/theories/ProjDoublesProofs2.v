(** Rounding in the intersection with a line that is not along an axis. *)
From Coq Require Import Reals ZArith List Bool Lia Lra Psatz.
From Flocq Require Import Core IEEE754.BinarySingleNaN.
From Verif Require Import Prelude Ellipse Rounding RoundedGen RoundedGenProofs2 RoundedGenProofs3 RoundedGenProofs4 EvalTac Doubles DoublesSpec DoublesProofs CtrlDoubles CtrlDoublesProofs NavDoublesSpec StepDoubles StepDoublesSpec StepDoublesProofs
  EllDoubles EllDoublesSpec EllDoublesProofs EllDoublesProofs2 StepDoublesProofs5 ProjDoubles ProjDoublesSpec ProjDoublesProofs.
Import ListNotations.
Open Scope R_scope.

(** ** One operation *)
Lemma pw : forall k, (0 <= k)%Z -> 1 <= bpow radix2 k.
Proof. intros k H. change 1 with (bpow radix2 0). apply bpow_le. lia. Qed.
Lemma floor_one : forall x, 1 <= x -> bpow radix2 (-900) <= x.
Proof. intros x H. apply Rle_trans with 1; [change 1 with (bpow radix2 0); apply bpow_le; lia|exact H]. Qed.
(** A product with scales of at least one. *)
Lemma op_mul : forall p q P Q x X y Y, fin x = true -> fin y = true -> 0 <= p <= 40 -> 0 <= q <= 40 -> 1 <= P -> 1 <= Q -> P * Q <= bpow radix2 900 -> Rabs X <= P -> Rabs Y <= Q ->
  off p P (f2r x) X -> off q Q (f2r y) Y -> fin (fmul x y) = true /\ off (p + q + 5 / 4) (P * Q) (f2r (fmul x y)) (X * Y) /\ Rabs (X * Y) <= P * Q.
Proof.
  intros p q P Q x X y Y Fx Fy Hp Hq HP HQ HPQ BX BY OX OY. assert (L : 1 <= P * Q) by (rewrite <- (Rmult_1_l 1); apply Rmult_le_compat; lra).
  destruct (near_prod' p q P Q (f2r x) X (f2r y) Y Hp Hq ltac:(lra) ltac:(lra) BX BY OX OY (floor_one _ L)) as (A & B).
  destruct (fmul_ok x y Fx Fy) as (F & V). { apply big_fin. apply Rle_trans with (4 * (P * Q)); [exact B|]. apply Rle_trans with (4 * bpow radix2 900); [lra|]. change 4 with (bpow radix2 2). rewrite <- bpow_plus. apply bpow_le. lia. }
  split; [exact F|split; [rewrite V; exact A|]]. rewrite Rabs_mult. apply Rmult_le_compat; auto; apply Rabs_pos.
Qed.
Lemma sum_off : forall k W x X y Y, 0 <= k <= 40 -> 1 <= W -> Rabs (X + Y) <= W -> Rabs (x - X + (y - Y)) <= k * (u64 * W) -> off (k + 5 / 4) W (b64 (x + y)) (X + Y) /\ Rabs (x + y) <= 2 * W.
Proof.
  intros k W x X y Y K HW B H. destruct (near_sum k W x X y Y 0 K ltac:(lra) ltac:(lra) B ltac:(lra)) as (A1 & A2). split; [|lra]. unfold off. pose proof (eta_below W (floor_one _ HW)). destruct u64_bounds as ((U0 & _) & _).
  assert (0 <= u64 * W) by (apply Rmult_le_pos; lra). lra.
Qed.
Lemma small_top : forall W x, W <= bpow radix2 900 -> Rabs x <= 2 * W -> Rabs x <= top.
Proof. intros W x H B. apply big_fin. apply Rle_trans with (2 * bpow radix2 900); [lra|]. change 2 with (bpow radix2 1). rewrite <- bpow_plus. apply bpow_le. lia. Qed.
Lemma op_add : forall p q W x X y Y, fin x = true -> fin y = true -> 0 <= p -> 0 <= q -> p + q <= 40 -> 1 <= W -> W <= bpow radix2 900 -> off p W (f2r x) X -> off q W (f2r y) Y -> Rabs (X + Y) <= W ->
  fin (fadd x y) = true /\ off (p + q + 5 / 4) W (f2r (fadd x y)) (X + Y).
Proof.
  intros p q W x X y Y Fx Fy Hp Hq Hpq HW HW' OX OY B. unfold off in OX, OY. destruct (sum_off (p + q) W (f2r x) X (f2r y) Y ltac:(lra) HW B) as (A1 & A2).
  { eapply Rle_trans; [apply Rabs_triang|]. lra. }
  destruct (fadd_ok x y Fx Fy (small_top W _ HW' A2)) as (F & V). split; [exact F|]. rewrite V. exact A1.
Qed.
Lemma op_sub : forall p q W x X y Y, fin x = true -> fin y = true -> 0 <= p -> 0 <= q -> p + q <= 40 -> 1 <= W -> W <= bpow radix2 900 -> off p W (f2r x) X -> off q W (f2r y) Y -> Rabs (X - Y) <= W ->
  fin (fsub x y) = true /\ off (p + q + 5 / 4) W (f2r (fsub x y)) (X - Y).
Proof.
  intros p q W x X y Y Fx Fy Hp Hq Hpq HW HW' OX OY B. unfold off in OX, OY. destruct (sum_off (p + q) W (f2r x) X (- f2r y) (- Y) ltac:(lra) HW B) as (A1 & A2).
  { replace (- f2r y - - Y) with (- (f2r y - Y)) by ring. eapply Rle_trans; [apply Rabs_triang|]. rewrite Rabs_Ropp. lra. }
  destruct (fsub_ok x y Fx Fy (small_top W _ HW' A2)) as (F & V). split; [exact F|]. rewrite V. exact A1.
Qed.
Lemma off_self : forall W x, off 0 W x x.
Proof. intros. unfold off. rewrite Rminus_diag_eq, Rabs_R0 by auto. lra. Qed.
Lemma off_wide : forall k W W' x X, 0 <= k -> W <= W' -> off k W x X -> off k W' x X.
Proof. intros k W W' x X K L H. unfold off in *. destruct u64_bounds as ((U0 & _) & _). apply Rle_trans with (k * (u64 * W)); [exact H|]. apply Rmult_le_compat_l; auto. apply Rmult_le_compat_l; lra. Qed.
Lemma ftwo : fin (a_q ieee 2 1) = true /\ f2r (a_q ieee 2 1) = 2.
Proof. replace (a_q ieee 2 1) with (fmake 2 0) by (apply same_f64; vm_compute; reflexivity). apply (fmake_exact 2). lia. Qed.
Lemma ffour : fin (a_q ieee 4 1) = true /\ f2r (a_q ieee 4 1) = 4.
Proof. replace (a_q ieee 4 1) with (fmake 4 0) by (apply same_f64; vm_compute; reflexivity). apply (fmake_exact 4). lia. Qed.
Lemma c0_0 : fin (c0 ieee) = true /\ f2r (c0 ieee) = 0.
Proof. replace (c0 ieee) with fzero by (apply same_f64; vm_compute; reflexivity). auto. Qed.

Section Slanted.
Variables sigma delta : f64.
Let S := f2r sigma.
Let D := f2r delta.
Hypothesis Fs : fin sigma = true.
Hypothesis Fd : fin delta = true.
Hypothesis Bs : Rabs S <= bpow radix2 20.
Hypothesis Bd : Rabs D <= bpow radix2 20.
Let h := sqrt (1 + S * S).
Let g := sqrt (1 + D * D).
Lemma hh : h * h = 1 + S * S. Proof. apply sqrt_def. pose proof (Rle_0_sqr S). unfold Rsqr in *. lra. Qed.
Lemma gg : g * g = 1 + D * D. Proof. apply sqrt_def. pose proof (Rle_0_sqr D). unfold Rsqr in *. lra. Qed.
Lemma root_ge : forall x, 1 <= sqrt (1 + x * x) /\ Rabs x <= sqrt (1 + x * x).
Proof.
  intros x. pose proof (Rle_0_sqr x) as Q. unfold Rsqr in Q. split.
  - rewrite <- sqrt_1 at 1. apply sqrt_le_1; lra.
  - rewrite <- sqrt_Rsqr_abs. unfold Rsqr. apply sqrt_le_1; lra.
Qed.
Lemma h1 : 1 <= h /\ Rabs S <= h. Proof. apply root_ge. Qed.
Lemma g1 : 1 <= g /\ Rabs D <= g. Proof. apply root_ge. Qed.
Lemma root_le : forall x, Rabs x <= bpow radix2 20 -> sqrt (1 + x * x) <= bpow radix2 21.
Proof.
  intros x H. pose proof (Rle_0_sqr x) as Q. unfold Rsqr in Q. rewrite <- (sqrt_Rsqr (bpow radix2 21)) by apply bpow_ge_0. apply sqrt_le_1; [lra|apply Rle_0_sqr|]. unfold Rsqr.
  assert (x * x <= bpow radix2 20 * bpow radix2 20) by (rewrite <- (Rabs_pos_eq (x * x)), Rabs_mult by auto; apply Rmult_le_compat; auto; apply Rabs_pos). assert (E : bpow radix2 21 * bpow radix2 21 = 4 * (bpow radix2 20 * bpow radix2 20)) by (change 4 with (bpow radix2 2); rewrite <- !bpow_plus; reflexivity).
  assert (1 <= bpow radix2 20 * bpow radix2 20) by (rewrite <- bpow_plus; apply pw; lia). lra.
Qed.
Lemma h2 : h <= bpow radix2 21. Proof. apply root_le; exact Bs. Qed.
Lemma g2 : g <= bpow radix2 21. Proof. apply root_le; exact Bd. Qed.
Lemma pos_hg : 1 <= h * h /\ 1 <= g * g /\ 1 <= g * h /\ 1 <= h * h * (g * g).
Proof.
  destruct h1 as (A & _). destruct g1 as (B & _). assert (P : forall x y, 1 <= x -> 1 <= y -> 1 <= x * y) by (intros x y X Y; rewrite <- (Rmult_1_l 1); apply Rmult_le_compat; lra). repeat split; auto.
Qed.
Lemma big_hg : h * h <= bpow radix2 42 /\ g * g <= bpow radix2 42 /\ g * h <= bpow radix2 42 /\ h * h * (g * g) <= bpow radix2 84.
Proof.
  pose proof h2. pose proof g2. destruct h1 as (A & _). destruct g1 as (B & _).
  assert (P : forall x y a b, 0 <= x <= bpow radix2 a -> 0 <= y <= bpow radix2 b -> x * y <= bpow radix2 (a + b)) by (intros; rewrite bpow_plus; apply Rmult_le_compat; lra).
  assert (h * h <= bpow radix2 42) by (apply (P h h 21%Z 21%Z); lra). assert (g * g <= bpow radix2 42) by (apply (P g g 21%Z 21%Z); lra).
  repeat split; auto; [apply (P g h 21%Z 21%Z); lra|]. destruct pos_hg as (? & ? & _). apply (P (h * h) (g * g) 42%Z 42%Z); lra.
Qed.
Let up k (H : (k <= 900)%Z) : bpow radix2 k <= bpow radix2 900 := bpow_le radix2 k 900 H.

Let aP := fadd f1 (fmul sigma sigma).
Let bP := fmul (fmul (a_q ieee 2 1) delta) sigma.
Let cP := fsub (fmul delta delta) f1.
Let dis := fsub (fmul bP bP) (fmul (fmul (a_q ieee 4 1) aP) cP).
Let den := fmul (a_q ieee 2 1) aP.

Lemma a_off : fin aP = true /\ off (5 / 2) (h * h) (f2r aP) (1 + S * S) /\ Rabs (1 + S * S) <= h * h.
Proof.
  destruct h1 as (A & B). destruct big_hg as (L & _). destruct pos_hg as (P & _). destruct f1_ok as (F1 & V1). pose proof (up 42 ltac:(lia)).
  destruct (op_mul 0 0 h h sigma S sigma S) as (F & O & _); auto; try lra; try apply off_self.
  destruct (op_add 0 (0 + 0 + 5 / 4) (h * h) f1 1 (fmul sigma sigma) (S * S)) as (F' & O'); auto; try lra.
  - rewrite V1. apply off_self.
  - rewrite <- hh. rewrite Rabs_pos_eq; lra.
  - split; [exact F'|]. split; [replace (5 / 2) with (0 + (0 + 0 + 5 / 4) + 5 / 4) by lra; exact O'|rewrite <- hh, Rabs_pos_eq; lra].
Qed.
Lemma b_off : fin bP = true /\ off (5 / 2) (2 * (g * h)) (f2r bP) (2 * D * S) /\ Rabs (2 * D * S) <= 2 * (g * h).
Proof.
  destruct h1 as (A & B). destruct g1 as (A' & B'). destruct big_hg as (_ & _ & L & _). destruct pos_hg as (_ & _ & P & _). destruct ftwo as (F2 & V2).
  assert (X1 : 2 * bpow radix2 42 <= bpow radix2 900) by (change 2 with (bpow radix2 1); rewrite <- bpow_plus; apply bpow_le; lia).
  assert (X2 : 2 * bpow radix2 21 <= bpow radix2 900) by (change 2 with (bpow radix2 1); rewrite <- bpow_plus; apply bpow_le; lia). pose proof g2.
  destruct (op_mul 0 0 2 g (a_q ieee 2 1) 2 delta D) as (F & O & Z); auto; try lra; try (rewrite Rabs_pos_eq; lra).
  - rewrite V2. apply off_self.
  - apply off_self.
  - destruct (op_mul (0 + 0 + 5 / 4) 0 (2 * g) h (fmul (a_q ieee 2 1) delta) (2 * D) sigma S) as (F' & O' & Z'); auto; try lra; [apply off_self|].
    assert (E : 2 * g * h = 2 * (g * h)) by ring. rewrite E in O', Z'. split; [exact F'|split; [replace (5 / 2) with (0 + 0 + 5 / 4 + 0 + 5 / 4) by lra; exact O'|exact Z']].
Qed.
Lemma c_off : fin cP = true /\ off (5 / 2) (g * g) (f2r cP) (D * D - 1) /\ Rabs (D * D - 1) <= g * g.
Proof.
  destruct g1 as (A & B). destruct big_hg as (_ & L & _). destruct pos_hg as (_ & P & _). destruct f1_ok as (F1 & V1). pose proof (up 42 ltac:(lia)). pose proof (Rle_0_sqr D) as Q. unfold Rsqr in Q.
  assert (Z : Rabs (D * D - 1) <= g * g) by (rewrite gg; apply Rabs_le; lra).
  destruct (op_mul 0 0 g g delta D delta D) as (F & O & _); auto; try lra; try apply off_self.
  destruct (op_sub (0 + 0 + 5 / 4) 0 (g * g) (fmul delta delta) (D * D) f1 1) as (F' & O'); auto; try lra.
  - rewrite V1. apply off_self.
  - split; [exact F'|]. split; [replace (5 / 2) with (0 + 0 + 5 / 4 + 0 + 5 / 4) by lra; exact O'|exact Z].
Qed.
(** The discriminant of the exact equation is [4 (1 + S^2 - D^2)]. *)
Let W := h * h * (g * g).
Lemma dis_off : fin dis = true /\ off 20 (4 * W) (f2r dis) (4 * (1 + S * S - D * D)).
Proof.
  destruct a_off as (Fa & Oa & Za). destruct b_off as (Fb & Ob & Zb). destruct c_off as (Fc & Oc & Zc). destruct ffour as (F4 & V4). destruct pos_hg as (P1 & P2 & P3 & P4). destruct big_hg as (L1 & L2 & L3 & L4).
  assert (E1 : 2 * (g * h) * (2 * (g * h)) = 4 * W) by (unfold W; ring). assert (X1 : 4 * bpow radix2 84 <= bpow radix2 900) by (change 4 with (bpow radix2 2); rewrite <- bpow_plus; apply bpow_le; lia).
  assert (X2 : 4 * bpow radix2 42 <= bpow radix2 900) by (change 4 with (bpow radix2 2); rewrite <- bpow_plus; apply bpow_le; lia).
  destruct (op_mul (5 / 2) (5 / 2) (2 * (g * h)) (2 * (g * h)) bP (2 * D * S) bP (2 * D * S)) as (Fbb & Obb & _); auto; try lra.
  destruct (op_mul 0 (5 / 2) 4 (h * h) (a_q ieee 4 1) 4 aP (1 + S * S)) as (F4a & O4a & Z4a); auto; try lra; try (rewrite Rabs_pos_eq; lra); try (rewrite V4; apply off_self).
  destruct (op_mul (0 + 5 / 2 + 5 / 4) (5 / 2) (4 * (h * h)) (g * g) (fmul (a_q ieee 4 1) aP) (4 * (1 + S * S)) cP (D * D - 1)) as (Fac & Oac & _); auto; try lra.
  assert (E2 : 4 * (h * h) * (g * g) = 4 * W) by (unfold W; ring). rewrite E1 in Obb. rewrite E2 in Oac.
  pose proof (Rle_0_sqr S) as QS. pose proof (Rle_0_sqr D) as QD. unfold Rsqr in QS, QD.
  assert (EW : W = (1 + S * S) * (1 + D * D)) by (unfold W; rewrite hh, gg; reflexivity). assert (SD : 0 <= S * S * (D * D)) by (apply Rmult_le_pos; auto).
  assert (ED : 2 * D * S * (2 * D * S) - 4 * (1 + S * S) * (D * D - 1) = 4 * (1 + S * S - D * D)) by ring.
  destruct (op_sub (5 / 2 + 5 / 2 + 5 / 4) (0 + 5 / 2 + 5 / 4 + 5 / 2 + 5 / 4) (4 * W) (fmul bP bP) (2 * D * S * (2 * D * S)) (fmul (fmul (a_q ieee 4 1) aP) cP) (4 * (1 + S * S) * (D * D - 1))) as (F & O); auto; try lra.
  - rewrite ED, EW. apply Rabs_le. lra.
  - split; [exact F|]. rewrite ED in O. fold dis in O. unfold off in *. destruct u64_bounds as ((U0 & _) & _). fold W in P4. assert (0 <= u64 * (4 * W)) by (apply Rmult_le_pos; lra). lra.
Qed.

(** What the rounding costs: [g^2] units of the last place stay below one. *)
Lemma ug : u64 * (g * g) <= / 2048.
Proof.
  destruct u64_bounds as ((U0 & _) & EU). destruct big_hg as (_ & L & _). apply Rle_trans with (u64 * bpow radix2 42); [apply Rmult_le_compat_l; lra|]. rewrite EU, <- bpow_plus. change (/ 2048) with (bpow radix2 (-11)). apply bpow_le. lia.
Qed.
Lemma den_off : fin den = true /\ off (15 / 4) (2 * (h * h)) (f2r den) (2 * (h * h)).
Proof.
  destruct a_off as (Fa & Oa & Za). destruct ftwo as (F2 & V2). destruct pos_hg as (P1 & _). destruct big_hg as (L1 & _).
  assert (X2 : 2 * bpow radix2 42 <= bpow radix2 900) by (change 2 with (bpow radix2 1); rewrite <- bpow_plus; apply bpow_le; lia).
  destruct (op_mul 0 (5 / 2) 2 (h * h) (a_q ieee 2 1) 2 aP (1 + S * S)) as (F & O & _); auto; try lra; try (rewrite Rabs_pos_eq; lra); try (rewrite V2; apply off_self).
  split; [exact F|]. rewrite <- hh in O. replace (15 / 4) with (0 + 5 / 2 + 5 / 4) by lra. exact O.
Qed.
(** A root of the computed discriminant [r], up to its sign, as numerator: the point is on the circle. *)
Lemma root_border : forall num r, fin num = true -> r * r = f2r dis -> Rabs r <= 9 / 4 * h -> Rabs (f2r num - (- (2 * D * S) + r)) <= 22 * (u64 * (g * h)) ->
  on_border (bpow radix2 (-46) * (1 + D * D + Rabs S)) (fdiv num den, fadd (fmul sigma (fdiv num den)) delta).
Proof.
  intros num r Fn Hr Br Hn. destruct den_off as (Fe & Oe). destruct dis_off as (_ & Od). destruct b_off as (_ & _ & Zb). destruct pos_hg as (P1 & P2 & P3 & P4). destruct big_hg as (L1 & L2 & L3 & L4). destruct h1 as (A1 & A2). destruct g1 as (B1 & B2).
  destruct u64_bounds as ((U0 & U1) & EU). unfold off in Oe, Od. pose proof ug as UG. pose proof eta64_pos as n0. assert (n1 : eta64 <= / 1024 * u64) by (pose proof (eta_below 1 (floor_one 1 ltac:(lra))); lra).
  set (d := f2r den) in *. set (n := f2r num) in *. set (H2 := h * h) in *. assert (UH : 0 <= u64 * H2 <= / 9007199254740992 * H2) by (split; [apply Rmult_le_pos; lra|apply Rmult_le_compat_r; lra]).
  assert (d1 : 9 / 5 * H2 <= d <= 11 / 5 * H2) by (apply Rabs_le_inv in Oe; lra). assert (d0 : 0 < d) by lra.
  assert (hgh : h <= g * h) by (rewrite <- (Rmult_1_l h) at 1; apply Rmult_le_compat_r; lra). set (GH := g * h) in *. assert (UGH : 0 <= u64 * GH <= / 9007199254740992 * GH) by (split; [apply Rmult_le_pos; lra|apply Rmult_le_compat_r; lra]).
  assert (nb : Rabs n <= 9 / 2 * GH). { replace n with ((n - (- (2 * D * S) + r)) + (- (2 * D * S) + r)) by ring. eapply Rle_trans; [apply Rabs_triang|]. pose proof (Rabs_triang (- (2 * D * S)) r) as T. rewrite Rabs_Ropp in T. lra. }
  set (q := n / d). assert (qd : q * d = n) by (unfold q; field; lra).
  (* |q| h <= 5/2 g *)
  assert (qb : Rabs q * H2 <= 5 / 2 * GH).
  { assert (Rabs q * d <= 9 / 2 * GH) by (rewrite <- (Rabs_pos_eq d) by lra; rewrite <- Rabs_mult, qd; exact nb). assert (Rabs q * (9 / 5 * H2) <= Rabs q * d) by (apply Rmult_le_compat_l; [apply Rabs_pos|lra]). lra. }
  assert (q21 : Rabs q <= 5 / 2 * g).
  { apply Rmult_le_reg_r with h; [lra|]. replace (5 / 2 * g * h) with (5 / 2 * GH) by (unfold GH; ring). apply Rle_trans with (Rabs q * H2); [|exact qb]. apply Rmult_le_compat_l; [apply Rabs_pos|]. unfold H2. rewrite <- (Rmult_1_l h) at 1. apply Rmult_le_compat_r; lra. }
  destruct (fdiv_ok num den Fn) as (Fx & Vx); [fold d; lra| |].
  { fold n d. fold q. apply big_fin. pose proof g2 as G2. apply Rle_trans with (4 * bpow radix2 21); [lra|]. change 4 with (bpow radix2 2). rewrite <- bpow_plus. apply bpow_le. lia. }
  fold n d in Vx. fold q in Vx. pose proof (b64_near q (Rabs q) (Rle_refl _)) as Nx. rewrite <- Vx in Nx. set (x := f2r (fdiv num den)) in *.
  (* 2 h^2 x + b = r up to eps *)
  set (t := 2 * H2 * x + 2 * D * S). assert (tr : Rabs (t - r) <= 48 * (u64 * GH)).
  { unfold t. replace (2 * H2 * x + 2 * D * S - r) with (2 * H2 * (x - q) + q * (2 * H2 - d) + (n - (- (2 * D * S) + r))) by (rewrite <- qd; ring).
    assert (Z1 : Rabs (2 * H2 * (x - q)) <= 5 * (u64 * GH) + 2 * H2 * eta64).
    { rewrite Rabs_mult, (Rabs_pos_eq (2 * H2)) by lra. apply Rle_trans with (2 * H2 * (u64 * Rabs q + eta64)); [apply Rmult_le_compat_l; lra|]. assert (u64 * (Rabs q * H2) <= u64 * (5 / 2 * GH)) by (apply Rmult_le_compat_l; lra). lra. }
    assert (Z2 : Rabs (q * (2 * H2 - d)) <= 19 * (u64 * GH)).
    { rewrite Rabs_mult, Rabs_minus_sym. apply Rle_trans with (Rabs q * (15 / 4 * (u64 * (2 * H2)))); [apply Rmult_le_compat_l; [apply Rabs_pos|exact Oe]|]. assert (u64 * (Rabs q * H2) <= u64 * (5 / 2 * GH)) by (apply Rmult_le_compat_l; lra). lra. }
    assert (Z3 : 2 * H2 * eta64 <= u64 * GH).
    { apply Rle_trans with (u64 * 1); [|apply Rmult_le_compat_l; lra]. apply Rle_trans with (2 * bpow radix2 42 * eta64); [apply Rmult_le_compat_r; lra|]. rewrite EU. unfold eta64. change 2 with (bpow radix2 1). change (/ bpow radix2 1) with (bpow radix2 (-1)). rewrite Rmult_1_r, <- !bpow_plus. apply bpow_le. lia. }
    eapply Rle_trans; [apply Rabs_triang|]. pose proof (Rabs_triang (2 * H2 * (x - q)) (q * (2 * H2 - d))). lra. }
  set (G2 := g * g) in *. assert (GHh : GH * h <= G2 * H2).
  { unfold GH, G2, H2. replace (g * h * h) with (g * (h * h)) by ring. apply Rmult_le_compat_r; [fold H2; lra|]. rewrite <- (Rmult_1_l g) at 1. apply Rmult_le_compat_r; lra. }
  assert (UGl : u64 * g <= / 2048) by (apply Rle_trans with (u64 * G2); [apply Rmult_le_compat_l; [lra|unfold G2; rewrite <- (Rmult_1_l g) at 1; apply Rmult_le_compat_r; lra]|exact UG]).
  assert (tb : Rabs (t + r) <= 5 * h).
  { replace (t + r) with ((t - r) + 2 * r) by ring. eapply Rle_trans; [apply Rabs_triang|]. rewrite (Rabs_mult 2 r), (Rabs_pos_eq 2) by lra. assert (u64 * GH <= / 2048 * h) by (unfold GH; rewrite <- Rmult_assoc; apply Rmult_le_compat_r; lra). lra. }
  (* residual of the equation *)
  assert (res : Rabs (t * t - 4 * (1 + S * S - D * D)) <= 320 * (u64 * (G2 * H2))).
  { replace (t * t - 4 * (1 + S * S - D * D)) with ((t - r) * (t + r) + (f2r dis - 4 * (1 + S * S - D * D))) by (rewrite <- Hr; ring). eapply Rle_trans; [apply Rabs_triang|]. rewrite Rabs_mult.
    assert (Rabs (t - r) * Rabs (t + r) <= 48 * (u64 * GH) * (5 * h)) by (apply Rmult_le_compat; auto; apply Rabs_pos). assert (u64 * (GH * h) <= u64 * (G2 * H2)) by (apply Rmult_le_compat_l; lra).
    replace (20 * (u64 * (4 * W))) with (80 * (u64 * (G2 * H2))) in Od by (unfold W, G2, H2; ring). lra. }
  set (Y := S * x + D). assert (id : 4 * H2 * (x * x + Y * Y - 1) = t * t - 4 * (1 + S * S - D * D)) by (unfold t, Y, H2; rewrite hh; ring).
  assert (pt : Rabs (x * x + Y * Y - 1) <= 80 * (u64 * G2)).
  { apply Rmult_le_reg_l with (4 * H2); [lra|]. rewrite <- (Rabs_pos_eq (4 * H2)) at 1 by lra. rewrite <- Rabs_mult, id. replace (4 * H2 * (80 * (u64 * G2))) with (320 * (u64 * (G2 * H2))) by ring. exact res. }
  assert (sq0 : forall z, 0 <= z * z) by (intros z; apply Rle_0_sqr). assert (pt1 : x * x + Y * Y <= 21 / 20) by (apply Rabs_le_inv in pt; lra).
  assert (sm : forall z, z * z <= 21 / 20 -> Rabs z <= 11 / 10). { intros z Z. rewrite <- (Rabs_pos_eq (11 / 10)) by lra. apply Rsqr_le_abs_0. unfold Rsqr. lra. }
  assert (xb : Rabs x <= 11 / 10) by (apply sm; pose proof (sq0 Y); lra). assert (Yb : Rabs Y <= 11 / 10) by (apply sm; pose proof (sq0 x); lra).
  assert (S20 : u64 * Rabs S <= / 2048). { apply Rle_trans with (u64 * bpow radix2 42); [apply Rmult_le_compat_l; [lra|pose proof (bpow_le radix2 20 42 ltac:(lia)); lra]|]. rewrite EU, <- bpow_plus. change (/ 2048) with (bpow radix2 (-11)). apply bpow_le. lia. }
  assert (Sx : Rabs (S * x) <= 11 / 10 * Rabs S) by (rewrite Rabs_mult, Rmult_comm; apply Rmult_le_compat_r; [apply Rabs_pos|exact xb]).
  pose proof (Rabs_pos S) as S0. assert (US0 : 0 <= u64 * Rabs S) by (apply Rmult_le_pos; lra).
  assert (big : forall k z, Rabs z <= 2 * Rabs S + 4 -> (k = 0)%Z -> Rabs z <= top).
  { intros k z Z _. apply big_fin. apply Rle_trans with (8 * bpow radix2 20); [pose proof (pw 20 ltac:(lia)); lra|]. change 8 with (bpow radix2 3). rewrite <- bpow_plus. apply bpow_le. lia. }
  destruct (fmul_ok sigma (fdiv num den) Fs Fx) as (Fm & Vm); [fold S x; apply (big 0%Z); auto; lra|]. fold S x in Vm. pose proof (b64_near _ _ Sx) as Nm. rewrite <- Vm in Nm. set (m := f2r (fmul sigma (fdiv num den))) in *.
  assert (mY : Rabs (m + D - Y) <= 5 / 4 * (u64 * Rabs S) + / 1024 * u64) by (unfold Y; replace (m + D - (S * x + D)) with (m - S * x) by ring; lra).
  assert (mb : Rabs (m + D) <= 5 / 4) by (replace (m + D) with ((m + D - Y) + Y) by ring; eapply Rle_trans; [apply Rabs_triang|]; lra).
  destruct (fadd_ok (fmul sigma (fdiv num den)) delta Fm Fd) as (Fy & Vy); [fold m D; apply (big 0%Z); auto; lra|]. fold m D in Vy. pose proof (b64_near _ _ mb) as Ny. rewrite <- Vy in Ny. set (y := f2r (fadd (fmul sigma (fdiv num den)) delta)) in *.
  assert (yY : Rabs (y - Y) <= 5 / 4 * (u64 * Rabs S) + 3 / 2 * u64) by (replace (y - Y) with ((y - (m + D)) + (m + D - Y)) by ring; eapply Rle_trans; [apply Rabs_triang|]; lra).
  assert (y2 : Rabs (y * y - Y * Y) <= 5 * (u64 * Rabs S) + 6 * u64).
  { replace (y * y - Y * Y) with ((y - Y) * (y - Y + 2 * Y)) by ring. rewrite Rabs_mult. assert (Rabs (y - Y + 2 * Y) <= 3) by (eapply Rle_trans; [apply Rabs_triang|]; rewrite (Rabs_mult 2 Y), (Rabs_pos_eq 2) by lra; lra).
    apply Rle_trans with ((5 / 4 * (u64 * Rabs S) + 3 / 2 * u64) * 3); [apply Rmult_le_compat; auto; apply Rabs_pos|]. lra. }
  split; [exact Fx|split; [exact Fy|]]. cbn [fst snd]. fold x y. assert (T : bpow radix2 (-46) = 128 * u64) by (rewrite EU; change 128 with (bpow radix2 7); rewrite <- bpow_plus; reflexivity). rewrite T, <- gg. fold G2.
  replace (x * x + y * y - 1) with ((x * x + Y * Y - 1) + (y * y - Y * Y)) by ring. eapply Rle_trans; [apply Rabs_triang|]. assert (u64 * 1 <= u64 * G2) by (apply Rmult_le_compat_l; lra). lra.
Qed.
Lemma roots : 0 <= f2r dis -> let r := sqrt (f2r dis) in r * r = f2r dis /\ 0 <= r <= 9 / 4 * h /\
  (fin (fadd (fopp bP) (fsqrt dis)) = true /\ Rabs (f2r (fadd (fopp bP) (fsqrt dis)) - (- (2 * D * S) + r)) <= 22 * (u64 * (g * h))) /\
  (fin (fsub (fopp bP) (fsqrt dis)) = true /\ Rabs (f2r (fsub (fopp bP) (fsqrt dis)) - (- (2 * D * S) + - r)) <= 22 * (u64 * (g * h))).
Proof.
  intros H0 r. destruct dis_off as (Fdis & Od). destruct b_off as (Fb & Ob & Zb). destruct pos_hg as (P1 & P2 & P3 & P4). destruct big_hg as (L1 & L2 & L3 & L4). destruct h1 as (A1 & A2). destruct g1 as (B1 & B2).
  destruct u64_bounds as ((U0 & U1) & EU). unfold off in Od. pose proof ug as UG. pose proof eta64_pos as n0. assert (n1 : eta64 <= / 1024 * u64) by (pose proof (eta_below 1 (floor_one 1 ltac:(lra))); lra).
  assert (rr : r * r = f2r dis) by (apply sqrt_def; exact H0). assert (r0 : 0 <= r) by apply sqrt_pos.
  assert (rb : r <= 9 / 4 * h).
  { apply Rsqr_incr_0; [|exact r0|lra]. unfold Rsqr. rewrite rr. replace (9 / 4 * h * (9 / 4 * h)) with (81 / 16 * (h * h)) by lra. rewrite hh in *.
    pose proof (Rle_0_sqr S) as QS. pose proof (Rle_0_sqr D) as QD. unfold Rsqr in QS, QD. assert (E : 20 * (u64 * (4 * W)) = 80 * (u64 * (g * g) * (1 + S * S))) by (unfold W; rewrite hh; ring). rewrite E in Od.
    assert (u64 * (g * g) * (1 + S * S) <= / 2048 * (1 + S * S)) by (apply Rmult_le_compat_r; lra). apply Rabs_le_inv in Od. lra. }
  assert (hgh : h <= g * h) by (rewrite <- (Rmult_1_l h) at 1; apply Rmult_le_compat_r; lra). set (GH := g * h) in *. assert (UGH : 0 <= u64 * GH) by (apply Rmult_le_pos; lra).
  destruct (fsqrt_ok _ Fdis H0) as (Fr & Vr). fold r in Vr. assert (Nr : Rabs (f2r (fsqrt dis) - r) <= 7 / 3 * (u64 * GH)).
  { rewrite Vr. assert (Rabs r <= 9 / 4 * GH) by (rewrite Rabs_pos_eq; lra). pose proof (b64_near _ _ H). assert (u64 * 1 <= u64 * GH) by (apply Rmult_le_compat_l; lra). lra. }
  assert (Fo : fin (fopp bP) = true) by (rewrite fopp_parts; exact Fb). assert (Vo : f2r (fopp bP) = - f2r bP) by (unfold f2r, fopp; apply B2R_Bopp).
  assert (Oo : off (5 / 2) (5 * GH) (f2r (fopp bP)) (- (2 * D * S))).
  { apply off_wide with (2 * GH); try lra. unfold off in *. rewrite Vo. replace (- f2r bP - - (2 * D * S)) with (- (f2r bP - 2 * D * S)) by ring. rewrite Rabs_Ropp. exact Ob. }
  assert (Or : off (/ 2) (5 * GH) (f2r (fsqrt dis)) r) by (unfold off; lra).
  assert (X1 : 5 * GH <= bpow radix2 900). { apply Rle_trans with (8 * bpow radix2 42); [lra|]. change 8 with (bpow radix2 3). rewrite <- bpow_plus. apply bpow_le. lia. }
  assert (Tb : Rabs (- (2 * D * S) + r) <= 5 * GH) by (eapply Rle_trans; [apply Rabs_triang|]; rewrite Rabs_Ropp, (Rabs_pos_eq r); lra).
  assert (Tc : Rabs (- (2 * D * S) - r) <= 5 * GH) by (unfold Rminus; eapply Rle_trans; [apply Rabs_triang|]; rewrite !Rabs_Ropp, (Rabs_pos_eq r); lra).
  split; [exact rr|split; [lra|]]. split.
  - destruct (op_add (5 / 2) (/ 2) (5 * GH) (fopp bP) (- (2 * D * S)) (fsqrt dis) r) as (F & O); auto; try lra. split; [exact F|]. unfold off in O. lra.
  - destruct (op_sub (5 / 2) (/ 2) (5 * GH) (fopp bP) (- (2 * D * S)) (fsqrt dis) r) as (F & O); auto; try lra. split; [exact F|]. unfold off in O. replace (- (2 * D * S) + - r) with (- (2 * D * S) - r) by ring. lra.
Qed.
Lemma slanted_border : forall sq c s at2 i j, v_slanted ieee (ieee_maths sq c s at2) sigma delta = Some (i, j) ->
  on_border (bpow radix2 (-46) * (1 + D * D + Rabs S)) i /\ on_border (bpow radix2 (-46) * (1 + D * D + Rabs S)) j.
Proof.
  intros sq c s at2 i j H. unfold v_slanted in H. rewrite c1_one in H. cbn [a_add a_mul a_sub a_div a_lt ieee x_opp x_sqrt ieee_maths] in H. fold aP bP cP in H. fold dis den in H.
  destruct dis_off as (Fdis & _). destruct c0_0 as (F0 & V0). destruct (Bltb dis (c0 ieee)) eqn:E; [discriminate|]. rewrite blt_ok, V0 in E by auto. rcasesh E; [discriminate|].
  destruct (roots ltac:(lra)) as (rr & rb & (Fa & Na) & (Fb & Nb)). set (r := sqrt (f2r dis)) in *.
  assert (Hi : i = (fdiv (fadd (fopp bP) (fsqrt dis)) den, fadd (fmul sigma (fdiv (fadd (fopp bP) (fsqrt dis)) den)) delta)) by congruence.
  assert (Hj : j = (fdiv (fsub (fopp bP) (fsqrt dis)) den, fadd (fmul sigma (fdiv (fsub (fopp bP) (fsqrt dis)) den)) delta)) by congruence. rewrite Hi, Hj.
  split; [apply (root_border _ r)|apply (root_border _ (- r))]; auto; try lra.
  - rewrite Rabs_pos_eq; lra.
  - rewrite Rabs_Ropp, Rabs_pos_eq; lra.
Qed.
End Slanted.
