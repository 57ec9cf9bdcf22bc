(** Rounding in the control law of the person following controller. *)
From Coq Require Import Reals ZArith List Bool Lia Lra.
From Flocq Require Import Core IEEE754.BinarySingleNaN.
From Verif Require Import Prelude Rounding RoundedGen RoundedGenSpec RoundedGenProofs2 RoundedGenProofs3 Doubles DoublesSpec DoublesProofs CtrlDoubles CtrlDoublesSpec CtrlDoublesProofs
  StepDoublesSpec StepDoublesProofs EllDoublesProofs UniDoublesSpec UniDoublesProofs TrackDoubles PersonDoubles PersonDoublesSpec.
Import ListNotations.
Open Scope R_scope.

Lemma four_pow : forall e, 4 * bpow radix2 e = bpow radix2 (e + 2).
Proof. intros e. rewrite bpow_plus. change (bpow radix2 2) with 4. ring. Qed.
Lemma sum_off : forall k W x y X Y, 0 <= k <= 40 -> bpow radix2 (-900) <= W <= bpow radix2 900 -> fin x = true -> fin y = true -> Rabs (X + Y) <= W -> Rabs (f2r x - X + (f2r y - Y)) <= k * (u64 * W) ->
  fin (fadd x y) = true /\ off (k + 5 / 4) W (f2r (fadd x y)) (X + Y).
Proof.
  intros k W x y X Y K (W1 & W2) Fx Fy B H. pose proof (bpow_gt_0 radix2 (-900)) as P. destruct (near_sum k W (f2r x) X (f2r y) Y 0) as (Q1 & Q2); try lra.
  destruct (fadd_ok x y Fx Fy) as (F & E). { apply big_fin. pose proof (bpow_le radix2 902 1000 ltac:(lia)). pose proof (four_pow 900). change (900 + 2)%Z with 902%Z in *. lra. }
  split; auto. rewrite E. unfold off. pose proof (eta_below _ W1). destruct u64_bounds as ((U0 & _) & _). assert (0 <= u64 * W) by (apply Rmult_le_pos; lra). lra.
Qed.
Lemma diff_off : forall k W x y X Y, 0 <= k <= 40 -> bpow radix2 (-900) <= W <= bpow radix2 900 -> fin x = true -> fin y = true -> Rabs (X - Y) <= W -> Rabs (f2r x - X - (f2r y - Y)) <= k * (u64 * W) ->
  fin (fsub x y) = true /\ off (k + 5 / 4) W (f2r (fsub x y)) (X - Y).
Proof.
  intros k W x y X Y K (W1 & W2) Fx Fy B H. pose proof (bpow_gt_0 radix2 (-900)) as P. destruct (near_sum k W (f2r x) X (- f2r y) (- Y) 0) as (Q1 & Q2); try lra.
  { exact B. } { replace (f2r x - X + (- f2r y - - Y)) with (f2r x - X - (f2r y - Y)) by ring. lra. }
  destruct (fsub_ok x y Fx Fy) as (F & E). { apply big_fin. pose proof (bpow_le radix2 902 1000 ltac:(lia)). pose proof (four_pow 900). change (900 + 2)%Z with 902%Z in *. change (f2r x - f2r y) with (f2r x + - f2r y). lra. }
  split; auto. rewrite E. unfold off. change (f2r x - f2r y) with (f2r x + - f2r y). change (X - Y) with (X + - Y). pose proof (eta_below _ W1). destruct u64_bounds as ((U0 & _) & _). assert (0 <= u64 * W) by (apply Rmult_le_pos; lra). lra.
Qed.
Lemma prod_off : forall p q P Q x y X Y, 0 <= p <= 40 -> 0 <= q <= 40 -> 0 <= P -> 0 <= Q -> bpow radix2 (-900) <= P * Q <= bpow radix2 900 -> fin x = true -> fin y = true ->
  Rabs X <= P -> Rabs Y <= Q -> off p P (f2r x) X -> off q Q (f2r y) Y -> fin (fmul x y) = true /\ off (p + q + 5 / 4) (P * Q) (f2r (fmul x y)) (X * Y).
Proof.
  intros p q P Q x y X Y Hp Hq HP HQ (L1 & L2) Fx Fy BX BY HX HY. destruct (near_prod' p q P Q (f2r x) X (f2r y) Y) as (A & B); auto.
  destruct (fmul_ok x y Fx Fy) as (F & E). { apply big_fin. pose proof (bpow_le radix2 902 1000 ltac:(lia)). pose proof (four_pow 900). change (900 + 2)%Z with 902%Z in *. lra. }
  split; auto. rewrite E. exact A.
Qed.
Lemma off_weak : forall k k' W x X, 0 <= W -> k <= k' -> off k W x X -> off k' W x X.
Proof. intros k k' W x X H K O. unfold off in *. destruct u64_bounds as ((U0 & _) & _). assert (k * (u64 * W) <= k' * (u64 * W)) by (apply Rmult_le_compat_r; [apply Rmult_le_pos; lra|auto]). lra. Qed.

Section Law.
Variables c s sq : f64 -> f64.
Variable at2 : f64 -> f64 -> f64.
Let M := ieee_maths sq c s at2.
Variables (B V : R) (S : field -> f64) (y v : f64 * f64) (u : dpose f64).
Hypothesis TR : close_trig c s.
Hypothesis AT : attached B S.
Hypothesis PF : pose_fin u.
Hypothesis PX : Rabs (f2r (d_x u)) <= B.
Hypothesis PY : Rabs (f2r (d_y u)) <= B.
Hypothesis HY : held2 B y.
Hypothesis HV : held2 V v.
Hypothesis V1 : V <= bpow radix2 100.
Let C := cos (f2r (d_th u)).
Let Sn := sin (f2r (d_th u)).
Let dx := f2r (S q_distX).
Let dy := f2r (S q_distY).
Let k := f2r (S q_gain).
Let q := Rabs (dy / dx).
Let E := V + 4 * k * B.
Let I := / Rabs dx.
Let P0 := f2r (d_x u) + (C * dx - Sn * dy).
Let P1 := f2r (d_y u) + (Sn * dx + C * dy).
Let e0 := f2r (fst v) - k * (P0 - f2r (fst y)).
Let e1 := f2r (snd v) - k * (P1 - f2r (snd y)).

Lemma p100 : 0 < bpow radix2 (-100) /\ bpow radix2 (-100) * bpow radix2 100 = 1 /\ bpow radix2 (-900) <= bpow radix2 (-100) * bpow radix2 (-100).
Proof. split; [apply bpow_gt_0|]. rewrite <- !bpow_plus. split; [reflexivity|]. apply bpow_le. lia. Qed.
Lemma sizes : 0 < B /\ bpow radix2 (-100) <= B /\ dx <> 0 /\ 0 < k /\ 0 <= V /\ 0 < E /\ bpow radix2 (-100) * bpow radix2 (-100) <= E <= bpow radix2 210 /\ bpow radix2 (-100) <= I <= bpow radix2 100 /\ 0 <= q <= bpow radix2 200 /\ I * Rabs dy = q /\ Rabs dx * I = 1.
Proof.
  destruct AT as ((Fx & Bx) & (Fy & By) & Lx & HB & Fk & Lk & Uk). fold dx in Bx, Lx. fold dy in By. fold k in Lk, Uk. destruct p100 as (Q1 & Q2 & Q3). assert (B1 : bpow radix2 (-100) <= B) by lra. assert (dx <> 0) by (intros Z; rewrite Z, Rabs_R0 in Lx; lra).
  assert (V0 : 0 <= V) by (destruct HV as ((_ & Z) & _); pose proof (Rabs_pos (f2r (fst v))); lra). assert (0 < k) by lra. assert (KB : bpow radix2 (-100) * bpow radix2 (-100) <= k * B) by (apply Rmult_le_compat; lra).
  assert (KB' : k * B <= bpow radix2 200). { replace (bpow radix2 200) with (bpow radix2 100 * bpow radix2 100) by (rewrite <- bpow_plus; reflexivity). apply Rmult_le_compat; lra. }
  assert (0 < bpow radix2 (-100) * bpow radix2 (-100)) by (apply Rmult_lt_0_compat; lra). assert (EI : bpow radix2 100 = / bpow radix2 (-100)) by (rewrite <- bpow_opp; reflexivity). assert (EI' : bpow radix2 (-100) = / bpow radix2 100) by (rewrite <- bpow_opp; reflexivity).
  assert (I1 : I <= bpow radix2 100) by (rewrite EI; apply Rinv_le; lra). assert (I2 : bpow radix2 (-100) <= I) by (rewrite EI'; apply Rinv_le; lra). assert (IQ : I * Rabs dy = q) by (unfold q, I, Rdiv; rewrite Rabs_mult, Rabs_inv; ring).
  assert (q <= bpow radix2 200). { rewrite <- IQ. replace (bpow radix2 200) with (bpow radix2 100 * bpow radix2 100) by (rewrite <- bpow_plus; reflexivity). apply Rmult_le_compat; try lra. apply Rabs_pos. }
  assert (0 <= q) by apply Rabs_pos. pose proof (four_pow 200). pose proof (bpow_le radix2 202 209 ltac:(lia)). pose proof (bpow_le radix2 100 209 ltac:(lia)). assert (bpow radix2 210 = 2 * bpow radix2 209) by (change 2 with (bpow radix2 1); rewrite <- bpow_plus; reflexivity). change (200 + 2)%Z with 202%Z in *.
  assert (KB4 : 4 * k * B = 4 * (k * B)) by ring. unfold E. rewrite KB4. repeat split; auto; try lra. unfold I. apply Rinv_r. apply Rabs_no_R0. auto.
Qed.
Lemma trig : fin (c (d_th u)) = true /\ fin (s (d_th u)) = true /\ off 2 1 (f2r (c (d_th u))) C /\ off 2 1 (f2r (s (d_th u))) Sn /\ Rabs C <= 1 /\ Rabs Sn <= 1.
Proof.
  destruct PF as (_ & _ & Ft). destruct (proj1 (TR (d_th u)) Ft) as (A1 & A2 & A3 & A4). destruct u64_bounds as (_ & EU). assert (D : bpow radix2 (-52) = 2 * (u64 * 1)) by (rewrite EU, Rmult_1_r; change 2 with (bpow radix2 1); rewrite <- bpow_plus; reflexivity).
  unfold off. rewrite <- D. repeat split; auto; [apply cos_abs|apply sin_abs].
Qed.
Lemma tb : forall t x, Rabs t <= 1 -> Rabs (t * x) <= Rabs x.
Proof. intros t x H. rewrite Rabs_mult. pose proof (Rabs_pos x). replace (Rabs x) with (1 * Rabs x) at 2 by ring. apply Rmult_le_compat_r; lra. Qed.

Lemma person_coord : forall x a b X Ca Cb, fin x = true -> f2r x = X -> Rabs X <= B -> fin a = true -> fin b = true -> off 2 1 (f2r a) Ca -> off 2 1 (f2r b) Cb -> Rabs Ca <= 1 -> Rabs Cb <= 1 ->
  let r := fadd x (fadd (fmul a (S q_distX)) (fmul b (S q_distY))) in fin r = true /\ off 5 (3 * B) (f2r r) (X + (Ca * dx + Cb * dy)) /\ Rabs (X + (Ca * dx + Cb * dy)) <= 3 * B.
Proof.
  intros x a b X Ca Cb Fx EX BX Fa Fb Ha Hb Ba Bb r. destruct sizes as (B0 & B1 & _). destruct AT as ((Fdx & Bx) & (Fdy & By) & Lx & HB & _). fold dx in Bx, Lx. fold dy in By. unfold off in Ha, Hb. destruct u64_bounds as ((U0 & U1) & _). destruct p100 as (Q1 & Q2 & Q3).
  pose proof (bpow_le radix2 100 402 ltac:(lia)) as L. destruct (trig_prod a (S q_distX) Ca Fa Fdx Ba) as (F1 & T1); [lra|fold dx; lra|]. destruct (trig_prod b (S q_distY) Cb Fb Fdy Bb) as (F2 & T2); [lra|fold dy; lra|]. fold dx in T1. fold dy in T2.
  destruct (comb _ _ _ _ _ _ F1 F2 Ba Bb T1 T2) as ((F3 & T3) & _); [lra|lra|]. pose proof (Rabs_pos dx). pose proof (Rabs_pos dy).
  assert (UB : u64 * (Rabs dx + Rabs dy) <= 2 * (u64 * B)) by (replace (2 * (u64 * B)) with (u64 * (2 * B)) by ring; apply Rmult_le_compat_l; lra).
  assert (EB : eta64 <= / 1024 * (u64 * B)) by (apply eta_below; pose proof (bpow_le radix2 (-900) (-100) ltac:(lia)); lra). assert (UP : 0 < u64 * B) by (apply Rmult_lt_0_compat; lra).
  assert (S1 : Rabs (X + (Ca * dx + Cb * dy)) <= 3 * B). { pose proof (Rabs_triang X (Ca * dx + Cb * dy)). pose proof (Rabs_triang (Ca * dx) (Cb * dy)). pose proof (tb Ca dx Ba). pose proof (tb Cb dy Bb). lra. }
  assert (W : bpow radix2 (-900) <= 3 * B <= bpow radix2 900). { pose proof (bpow_le radix2 (-900) (-100) ltac:(lia)). pose proof (bpow_le radix2 102 900 ltac:(lia)). pose proof (four_pow 100). change (100 + 2)%Z with 102%Z in *. lra. }
  destruct (sum_off 3 (3 * B) x _ X (Ca * dx + Cb * dy) ltac:(lra) W Fx F3 S1) as (F4 & O4). { rewrite EX. replace (X - X + (f2r (fadd (fmul a (S q_distX)) (fmul b (S q_distY))) - (Ca * dx + Cb * dy))) with (f2r (fadd (fmul a (S q_distX)) (fmul b (S q_distY))) - (Ca * dx + Cb * dy)) by ring. replace (3 * (u64 * (3 * B))) with (9 * (u64 * B)) by ring. lra. }
  split; [exact F4|]. split; [|exact S1]. eapply off_weak; [lra| |exact O4]. lra.
Qed.
Lemma person_ok : let m := p_person ieee M S u in fin (fst m) = true /\ fin (snd m) = true /\ off 5 (3 * B) (f2r (fst m)) P0 /\ off 5 (3 * B) (f2r (snd m)) P1 /\ Rabs P0 <= 3 * B /\ Rabs P1 <= 3 * B.
Proof.
  intros m. destruct trig as (F1 & F2 & O1 & O2 & B1 & B2). destruct PF as (Fx & Fy & _).
  assert (O3 : off 2 1 (f2r (fopp (s (d_th u)))) (- Sn)). { unfold off. rewrite f2r_opp. replace (- f2r (s (d_th u)) - - Sn) with (- (f2r (s (d_th u)) - Sn)) by ring. rewrite Rabs_Ropp. exact O2. }
  destruct (person_coord (d_x u) (c (d_th u)) (fopp (s (d_th u))) _ C (- Sn) Fx eq_refl PX F1) as (A1 & A2 & A3); auto. { rewrite fin_opp. auto. } { rewrite Rabs_Ropp. auto. }
  destruct (person_coord (d_y u) (s (d_th u)) (c (d_th u)) _ Sn C Fy eq_refl PY F2) as (A4 & A5 & A6); auto.
  replace (f2r (d_x u) + (C * dx + - Sn * dy)) with P0 in * by (unfold P0; ring). auto 10.
Qed.
Lemma err_coord : forall vv m yy P, fin vv = true -> Rabs (f2r vv) <= V -> fin m = true -> off 5 (3 * B) (f2r m) P -> Rabs P <= 3 * B -> held B yy ->
  let r := fsub vv (fmul (S q_gain) (fsub m yy)) in fin r = true /\ off 9 E (f2r r) (f2r vv - k * (P - f2r yy)) /\ Rabs (f2r vv - k * (P - f2r yy)) <= E.
Proof.
  intros vv m yy P Fv Bv Fm Om BP (Fy & By) r. destruct sizes as (B0 & B1 & _ & K0 & V0 & E0 & (E1 & E2) & _). destruct AT as (_ & _ & _ & HB & Fk & Lk & Uk). fold k in Lk, Uk. destruct u64_bounds as ((U0 & U1) & _). destruct p100 as (Q1 & Q2 & Q3).
  assert (UP : 0 < u64 * B) by (apply Rmult_lt_0_compat; lra). pose proof (bpow_le radix2 (-900) (-100) ltac:(lia)). pose proof (bpow_le radix2 102 900 ltac:(lia)). pose proof (four_pow 100). change (100 + 2)%Z with 102%Z in *.
  assert (D1 : Rabs (P - f2r yy) <= 4 * B) by (pose proof (Rabs_triang P (- f2r yy)) as Z; rewrite (Rabs_Ropp (f2r yy)) in Z; unfold Rminus; lra).
  destruct (diff_off 4 (4 * B) m yy P (f2r yy) ltac:(lra) ltac:(lra) Fm Fy D1) as (F1 & O1). { unfold off in Om. replace (f2r m - P - (f2r yy - f2r yy)) with (f2r m - P) by ring. replace (5 * (u64 * (3 * B))) with (15 * (u64 * B)) in Om by ring. replace (4 * (u64 * (4 * B))) with (16 * (u64 * B)) by ring. lra. }
  assert (KB : k * (4 * B) = 4 * (k * B)) by ring. assert (L1 : bpow radix2 (-100) * bpow radix2 (-100) <= k * B) by (apply Rmult_le_compat; lra).
  assert (L2 : k * (4 * B) <= E) by (unfold E; lra). pose proof (bpow_gt_0 radix2 (-900)). pose proof (bpow_le radix2 210 900 ltac:(lia)).
  destruct (prod_off 0 (4 + 5 / 4) k (4 * B) (S q_gain) (fsub m yy) k (P - f2r yy) ltac:(lra) ltac:(lra) ltac:(lra) ltac:(lra)) as (F2 & O2); auto; try lra. { rewrite Rabs_pos_eq; lra. } { apply off_self. lra. }
  assert (S2 : Rabs (k * (P - f2r yy)) <= 4 * k * B). { rewrite Rabs_mult, (Rabs_pos_eq k) by lra. replace (4 * k * B) with (k * (4 * B)) by ring. apply Rmult_le_compat_l; lra. }
  assert (S3 : Rabs (f2r vv - k * (P - f2r yy)) <= E) by (pose proof (Rabs_triang (f2r vv) (- (k * (P - f2r yy)))) as Z; rewrite (Rabs_Ropp (k * (P - f2r yy))) in Z; unfold E, Rminus at 1; lra).
  destruct (diff_off (13/2) E vv (fmul (S q_gain) (fsub m yy)) (f2r vv) (k * (P - f2r yy)) ltac:(lra) ltac:(lra) Fv F2 S3) as (F3 & O3).
  { replace (f2r vv - f2r vv - (f2r (fmul (S q_gain) (fsub m yy)) - k * (P - f2r yy))) with (- (f2r (fmul (S q_gain) (fsub m yy)) - k * (P - f2r yy))) by ring. rewrite Rabs_Ropp. unfold off in O2. assert (u64 * (k * (4 * B)) <= u64 * E) by (apply Rmult_le_compat_l; lra). assert (0 <= u64 * (k * (4 * B))) by (apply Rmult_le_pos; lra). lra. }
  split; [exact F3|]. split; [|exact S3]. eapply off_weak; [lra| |exact O3]. lra.
Qed.
Lemma quot_off : forall a A Q, fin a = true -> Rabs A <= 1 + Q -> 0 <= Q -> off 2 (1 + Q) (f2r a) A -> 1 + Q <= bpow radix2 101 -> fin (fdiv a (S q_distX)) = true /\ off 4 ((1 + Q) * I) (f2r (fdiv a (S q_distX))) (A / dx).
Proof.
  intros a A Q Fa BA Q0 Oa QB. destruct sizes as (B0 & B1 & D0 & K0 & V0 & E0 & (E1 & E2) & (I1 & I2) & (q0 & q1) & IQ & II). destruct u64_bounds as ((U0 & U1) & _). destruct p100 as (Q1 & Q2 & Q3). assert (I0 : 0 < I) by lra.
  set (W := (1 + Q) * I). assert (W0 : bpow radix2 (-100) <= W). { unfold W. apply Rle_trans with (1 * I); [lra|]. apply Rmult_le_compat_r; lra. } assert (W1 : W <= bpow radix2 201). { replace (bpow radix2 201) with (bpow radix2 101 * bpow radix2 100) by (rewrite <- bpow_plus; reflexivity). unfold W. apply Rmult_le_compat; lra. }
  assert (UW : 0 < u64 * W) by (apply Rmult_lt_0_compat; lra). assert (DE : Rabs (f2r a / dx - A / dx) <= 2 * (u64 * W)). { replace (f2r a / dx - A / dx) with ((f2r a - A) * / dx) by (unfold Rdiv; ring). rewrite Rabs_mult, Rabs_inv. fold I. unfold off in Oa. replace (2 * (u64 * W)) with (2 * (u64 * (1 + Q)) * I) by (unfold W; ring). apply Rmult_le_compat_r; lra. }
  assert (BA' : Rabs (A / dx) <= W). { unfold Rdiv. rewrite Rabs_mult, Rabs_inv. fold I. unfold W. apply Rmult_le_compat_r; lra. }
  assert (Z : Rabs (f2r a / dx) <= W + 2 * (u64 * W)) by (replace (f2r a / dx) with ((f2r a / dx - A / dx) + A / dx) by ring; pose proof (Rabs_triang (f2r a / dx - A / dx) (A / dx)); lra).
  assert (UUW : u64 * (u64 * W) <= / 9007199254740992 * (u64 * W)) by (apply Rmult_le_compat_r; lra). assert (WW : u64 * W <= / 9007199254740992 * W) by (apply Rmult_le_compat_r; lra).
  destruct (fdiv_ok a (S q_distX) Fa D0) as (F & EF). { fold dx. apply big_fin. pose proof (bpow_le radix2 203 1000 ltac:(lia)). pose proof (four_pow 201). change (201 + 2)%Z with 203%Z in *. lra. }
  split; auto. rewrite EF. fold dx. unfold off. pose proof (b64_near _ _ Z) as N. replace (u64 * (W + 2 * (u64 * W))) with (u64 * W + 2 * (u64 * (u64 * W))) in N by ring.
  assert (eta64 <= / 1024 * (u64 * W)) by (apply eta_below; pose proof (bpow_le radix2 (-900) (-100) ltac:(lia)); lra).
  replace (b64 (f2r a / dx) - A / dx) with ((b64 (f2r a / dx) - f2r a / dx) + (f2r a / dx - A / dx)) by ring. pose proof (Rabs_triang (b64 (f2r a / dx) - f2r a / dx) (f2r a / dx - A / dx)). lra.
Qed.
Lemma ratio_off : forall a A, fin a = true -> f2r a = A -> Rabs A = Rabs dy -> fin (fdiv a (S q_distX)) = true /\ off (5 / 4) (1 + q) (f2r (fdiv a (S q_distX))) (A / dx) /\ Rabs (A / dx) = q.
Proof.
  intros a A Fa EA BA. destruct sizes as (B0 & B1 & D0 & K0 & V0 & E0 & (E1 & E2) & (I1 & I2) & (q0 & q1) & IQ & II). destruct u64_bounds as ((U0 & U1) & _).
  assert (RQ : Rabs (A / dx) = q) by (unfold Rdiv; rewrite Rabs_mult, BA, Rabs_inv; fold I; lra). destruct (fdiv_ok a (S q_distX) Fa D0) as (F & EF). { rewrite EA. fold dx. rewrite RQ. pose proof (bpow_le radix2 200 1000 ltac:(lia)). pose proof (big_fin (bpow radix2 1000)) as Z. rewrite Rabs_pos_eq in Z by apply bpow_ge_0. specialize (Z (Rle_refl _)). lra. }
  split; auto. split; [|exact RQ]. rewrite EF, EA. fold dx. unfold off. pose proof (b64_near _ _ (Req_le _ _ RQ)). assert (eta64 <= / 1024 * (u64 * (1 + q))) by (apply eta_below; pose proof (bpow_le radix2 (-900) 0 ltac:(lia)); change (bpow radix2 0) with 1 in *; lra).
  assert (u64 * q <= u64 * (1 + q)) by (apply Rmult_le_compat_l; lra). assert (0 <= u64 * (1 + q)) by (apply Rmult_le_pos; lra). lra.
Qed.
Lemma gain_off : forall a A t T t' T', fin a = true -> f2r a = A -> Rabs A = Rabs dy -> fin t = true -> fin t' = true -> off 2 1 (f2r t) T -> off 2 1 (f2r t') T' -> Rabs T <= 1 -> Rabs T' <= 1 ->
  let r := fadd (fmul (fdiv a (S q_distX)) t) t' in fin r = true /\ off 8 (1 + q) (f2r r) (A / dx * T + T') /\ Rabs (A / dx * T + T') <= 1 + q.
Proof.
  intros a A t T t' T' Fa EA BA Ft Ft' Ot Ot' BT BT' r. destruct (ratio_off a A Fa EA BA) as (F1 & O1 & R1). destruct sizes as (B0 & B1 & D0 & K0 & V0 & E0 & (E1 & E2) & (I1 & I2) & (q0 & q1) & IQ & II). destruct u64_bounds as ((U0 & U1) & _).
  assert (L1 : bpow radix2 (-900) <= 1 + q) by (pose proof (bpow_le radix2 (-900) 0 ltac:(lia)); change (bpow radix2 0) with 1 in *; lra). assert (L2 : 1 + q <= bpow radix2 900). { pose proof (bpow_le radix2 0 200 ltac:(lia)). pose proof (bpow_le radix2 202 900 ltac:(lia)). pose proof (four_pow 200). change (200 + 2)%Z with 202%Z in *. change (bpow radix2 0) with 1 in *. lra. }
  destruct (prod_off (5 / 4) 2 (1 + q) 1 (fdiv a (S q_distX)) t (A / dx) T) as (F2 & O2); auto; try lra. rewrite Rmult_1_r in O2.
  assert (S1 : Rabs (A / dx * T + T') <= 1 + q). { pose proof (Rabs_triang (A / dx * T) T') as Z. rewrite (Rabs_mult (A / dx) T), R1 in Z. assert (q * Rabs T <= q * 1) by (apply Rmult_le_compat_l; lra). lra. }
  destruct (sum_off (13 / 2) (1 + q) (fmul (fdiv a (S q_distX)) t) t' (A / dx * T) T' ltac:(lra) (conj L1 L2) F2 Ft' S1) as (F3 & O3).
  { unfold off in O2, Ot'. pose proof (Rabs_triang (f2r (fmul (fdiv a (S q_distX)) t) - A / dx * T) (f2r t' - T')). assert (u64 * 1 <= u64 * (1 + q)) by (apply Rmult_le_compat_l; lra). lra. }
  split; [exact F3|]. split; [|exact S1]. eapply off_weak; [lra| |exact O3]. lra.
Qed.
Lemma row_off : forall G p a b g h A0 A1 X Y, 0 <= p <= 8 -> bpow radix2 (-100) <= G <= bpow radix2 202 -> fin a = true -> fin b = true -> fin g = true -> fin h = true -> off p G (f2r a) A0 -> off p G (f2r b) A1 -> Rabs A0 <= G -> Rabs A1 <= G ->
  off 9 E (f2r g) X -> off 9 E (f2r h) Y -> Rabs X <= E -> Rabs Y <= E ->
  let r := fadd (fmul a g) (fmul b h) in fin r = true /\ Rabs (f2r r - (A0 * X + A1 * Y)) <= 2 * (p + 12) * (u64 * (G * E)).
Proof.
  intros G p a b g h A0 A1 X Y Hp (G1 & G2) Fa Fb Fg Fh Oa Ob BA BB OX OY BX BY r. destruct sizes as (B0 & B1 & D0 & K0 & V0 & E0 & (E1 & E2) & _). destruct u64_bounds as ((U0 & U1) & _). destruct p100 as (Q1 & Q2 & Q3).
  assert (G0 : 0 < G) by lra. assert (GE : bpow radix2 (-900) <= G * E). { apply Rle_trans with (bpow radix2 (-100) * (bpow radix2 (-100) * bpow radix2 (-100))); [rewrite <- !bpow_plus; apply bpow_le; lia|]. assert (0 < bpow radix2 (-100) * bpow radix2 (-100)) by (apply Rmult_lt_0_compat; lra). apply Rmult_le_compat; lra. }
  assert (GE' : G * E <= bpow radix2 412). { replace (bpow radix2 412) with (bpow radix2 202 * bpow radix2 210) by (rewrite <- bpow_plus; reflexivity). apply Rmult_le_compat; lra. } pose proof (bpow_le radix2 414 900 ltac:(lia)). pose proof (four_pow 412). change (412 + 2)%Z with 414%Z in *. pose proof (bpow_gt_0 radix2 (-900)).
  destruct (prod_off p 9 G E a g A0 X) as (F1 & O1); auto; try lra. destruct (prod_off p 9 G E b h A1 Y) as (F2 & O2); auto; try lra. unfold off in O1, O2.
  assert (T1 : Rabs (A0 * X) <= G * E) by (rewrite Rabs_mult; apply Rmult_le_compat; auto; apply Rabs_pos). assert (T2 : Rabs (A1 * Y) <= G * E) by (rewrite Rabs_mult; apply Rmult_le_compat; auto; apply Rabs_pos).
  destruct (sum_off (p + 9 + 5 / 4) (2 * (G * E)) (fmul a g) (fmul b h) (A0 * X) (A1 * Y)) as (F3 & O3); auto; try lra.
  { pose proof (Rabs_triang (A0 * X) (A1 * Y)). lra. } { pose proof (Rabs_triang (f2r (fmul a g) - A0 * X) (f2r (fmul b h) - A1 * Y)). replace ((p + 9 + 5 / 4) * (u64 * (2 * (G * E)))) with (2 * ((p + 9 + 5 / 4) * (u64 * (G * E)))) by ring. lra. }
  split; [exact F3|]. unfold off in O3. eapply Rle_trans; [exact O3|]. replace ((p + 9 + 5 / 4 + 5 / 4) * (u64 * (2 * (G * E)))) with (2 * (p + 23 / 2) * (u64 * (G * E))) by field. assert (0 <= u64 * (G * E)) by (apply Rmult_le_pos; lra). apply Rmult_le_compat_r; lra.
Qed.
(** The commands are finite and close to those of exact arithmetic. *)
Lemma law_near : let o := p_law ieee M S y v u in fin (d_fwd o) = true /\ fin (d_ang o) = true /\ d_lat o = c0 ieee
  /\ Rabs (f2r (d_fwd o) - ((- dy / dx * Sn + C) * e0 + (dy / dx * C + Sn) * e1)) <= 40 * (u64 * ((1 + q) * E))
  /\ Rabs (f2r (d_ang o) - (- Sn / dx * e0 + C / dx * e1)) <= 32 * (u64 * (I * E)).
Proof.
  intros o. destruct trig as (F1 & F2 & O1 & O2 & B1 & B2). destruct person_ok as (Fm0 & Fm1 & Om0 & Om1 & Bm0 & Bm1). destruct AT as ((Fdx & Bx) & (Fdy & By) & _). fold dx dy in Bx, By. destruct HY as (Hy0 & Hy1). destruct HV as ((Fv0 & Bv0) & (Fv1 & Bv1)).
  destruct (err_coord (fst v) _ (fst y) P0 Fv0 Bv0 Fm0 Om0 Bm0 Hy0) as (Fe0 & Oe0 & Be0). destruct (err_coord (snd v) _ (snd y) P1 Fv1 Bv1 Fm1 Om1 Bm1 Hy1) as (Fe1 & Oe1 & Be1). fold e0 in Oe0, Be0. fold e1 in Oe1, Be1.
  assert (Fdy' : fin (fopp (S q_distY)) = true) by (rewrite fin_opp; auto). assert (Fs' : fin (fopp (s (d_th u))) = true) by (rewrite fin_opp; auto).
  assert (O3 : off 2 1 (f2r (fopp (s (d_th u)))) (- Sn)). { unfold off. rewrite f2r_opp. replace (- f2r (s (d_th u)) - - Sn) with (- (f2r (s (d_th u)) - Sn)) by ring. rewrite Rabs_Ropp. exact O2. }
  assert (B3 : Rabs (- Sn) <= 1) by (rewrite Rabs_Ropp; auto).
  destruct (gain_off (fopp (S q_distY)) (- dy) (s (d_th u)) Sn (c (d_th u)) C Fdy' (f2r_opp _) (Rabs_Ropp _) F2 F1 O2 O1 B2 B1) as (Fb00 & Ob00 & Bb00). destruct (gain_off (S q_distY) dy (c (d_th u)) C (s (d_th u)) Sn Fdy eq_refl eq_refl F1 F2 O1 O2 B1 B2) as (Fb01 & Ob01 & Bb01).
  pose proof sizes as (B0 & _ & D0 & _ & _ & E0 & _ & (I1 & I2) & (q0 & q1) & IQ & II). destruct p100 as (Q1 & Q2 & Q3). assert (J : 1 + 0 <= bpow radix2 101) by (pose proof (bpow_le radix2 0 101 ltac:(lia)); change (bpow radix2 0) with 1 in *; lra).
  destruct (quot_off (fopp (s (d_th u))) (- Sn) 0 Fs') as (Fb10 & Ob10); try lra. { replace (1 + 0) with 1 by ring. exact O3. } destruct (quot_off (c (d_th u)) C 0 F1) as (Fb11 & Ob11); try lra. { replace (1 + 0) with 1 by ring. exact O1. }
  replace ((1 + 0) * I) with I in Ob10, Ob11 by ring.
  assert (IB : forall t, Rabs t <= 1 -> Rabs (t / dx) <= I). { intros t Ht. unfold Rdiv. rewrite Rabs_mult, Rabs_inv. fold I. replace I with (1 * I) at 2 by ring. apply Rmult_le_compat_r; lra. }
  assert (GB : bpow radix2 (-100) <= 1 + q <= bpow radix2 202). { pose proof (bpow_le radix2 (-100) 0 ltac:(lia)). pose proof (bpow_le radix2 0 200 ltac:(lia)). change (bpow radix2 0) with 1 in *. pose proof (four_pow 200). change (200 + 2)%Z with 202%Z in *. lra. }
  assert (IG : bpow radix2 (-100) <= I <= bpow radix2 202) by (pose proof (bpow_le radix2 100 202 ltac:(lia)); lra).
  destruct (row_off (1 + q) 8 _ _ _ _ _ _ e0 e1 ltac:(lra) GB Fb00 Fb01 Fe0 Fe1 Ob00 Ob01 Bb00 Bb01 Oe0 Oe1 Be0 Be1) as (R1 & R2). destruct (row_off I 4 _ _ _ _ _ _ e0 e1 ltac:(lra) IG Fb10 Fb11 Fe0 Fe1 Ob10 Ob11 (IB _ B3) (IB _ B1) Oe0 Oe1 Be0 Be1) as (R3 & R4).
  split; [exact R1|]. split; [exact R3|]. split; [reflexivity|]. split.
  - eapply Rle_trans; [exact R2|]. lra.
  - eapply Rle_trans; [exact R4|]. lra.
Qed.
(** The velocity of the tracked point. *)
Lemma law_velocity64 : let o := p_law ieee M S y v u in let f := f2r (d_fwd o) in let w := f2r (d_ang o) in let tol := (1 + q) * E * bpow radix2 (-46) in
  Rabs (f * C - w * (Sn * dx + C * dy) - e0) <= tol /\ Rabs (f * Sn + w * (C * dx - Sn * dy) - e1) <= tol.
Proof.
  intros o f w tol. destruct law_near as (_ & _ & _ & N1 & N2). fold o f w in N1, N2. destruct trig as (_ & _ & _ & _ & B1 & B2). pose proof sizes as (B0 & _ & D0 & _ & _ & E0 & _ & (I1 & I2) & (q0 & q1) & IQ & II). destruct u64_bounds as ((U0 & U1) & EU).
  set (F := (- dy / dx * Sn + C) * e0 + (dy / dx * C + Sn) * e1) in *. set (W := - Sn / dx * e0 + C / dx * e1) in *. pose proof (sin2_cos2 (f2r (d_th u))) as SC. unfold Rsqr in SC. fold Sn C in SC.
  assert (X0 : F * C - W * (Sn * dx + C * dy) = e0). { transitivity (e0 * (Sn * Sn + C * C)); [unfold F, W; field; auto|rewrite SC; ring]. }
  assert (X1 : F * Sn + W * (C * dx - Sn * dy) = e1). { transitivity (e1 * (Sn * Sn + C * C)); [unfold F, W; field; auto|rewrite SC; ring]. }
  assert (A1 : forall a b, Rabs a <= 1 -> Rabs b <= 1 -> Rabs (a * dx + b * dy) <= Rabs dx + Rabs dy). { intros a b Ha Hb. pose proof (Rabs_triang (a * dx) (b * dy)). pose proof (tb a dx Ha). pose proof (tb b dy Hb). lra. }
  assert (TOL : forall a b0 b1, Rabs a <= 1 -> Rabs b0 <= 1 -> Rabs b1 <= 1 -> Rabs ((f - F) * a + (w - W) * (b0 * dx + b1 * dy)) <= tol).
  { intros a b0 b1 Ha Hb0 Hb1. pose proof (Rabs_triang ((f - F) * a) ((w - W) * (b0 * dx + b1 * dy))) as T. pose proof (tb a (f - F) Ha) as T1. rewrite (Rmult_comm a) in T1.
    assert (T2 : Rabs ((w - W) * (b0 * dx + b1 * dy)) <= 32 * (u64 * (I * E)) * (Rabs dx + Rabs dy)) by (rewrite Rabs_mult; apply Rmult_le_compat; auto; apply Rabs_pos).
    replace (32 * (u64 * (I * E)) * (Rabs dx + Rabs dy)) with (32 * (u64 * ((Rabs dx * I + I * Rabs dy) * E))) in T2 by ring. rewrite II, IQ in T2.
    assert (tol = 128 * (u64 * ((1 + q) * E))). { unfold tol. rewrite EU. replace (bpow radix2 (-46)) with (128 * bpow radix2 (-53)); [ring|]. change 128 with (bpow radix2 7). rewrite <- bpow_plus. reflexivity. }
    assert (0 <= u64 * ((1 + q) * E)) by (apply Rmult_le_pos; [lra|]; apply Rmult_le_pos; lra). lra. }
  split.
  - rewrite <- X0. replace (f * C - w * (Sn * dx + C * dy) - (F * C - W * (Sn * dx + C * dy))) with ((f - F) * C + (w - W) * (- Sn * dx + - C * dy)) by ring. apply TOL; auto; rewrite Rabs_Ropp; auto.
  - rewrite <- X1. replace (f * Sn + w * (C * dx - Sn * dy) - (F * Sn + W * (C * dx - Sn * dy))) with ((f - F) * Sn + (w - W) * (C * dx + - Sn * dy)) by ring. apply TOL; auto; rewrite Rabs_Ropp; auto.
Qed.
End Law.
