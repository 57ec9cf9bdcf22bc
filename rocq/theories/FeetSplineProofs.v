(** Lemmas on the cubic spline feet generator. *)
From Coq Require Import String Reals Lra Lia List Bool Psatz.
From Verif Require Import Prelude EvalTac Rounding FootPrint GenPhases FeetTraj FeetSpec FeetProofs CoMHeightSpec FeetSpline FeetSplineSpec.
Import ListNotations.
Open Scope R_scope.

(** The share of the way covered at the share [s] of the time. *)
Definition ease (s : R) : R := 3 * s ^ 2 - 2 * s ^ 3.
Lemma ease_range : forall s, 0 <= s <= 1 -> 0 <= ease s <= 1.
Proof.
  intros s H. unfold ease. replace (3 * s ^ 2 - 2 * s ^ 3) with (s * s * (3 - 2 * s)) by ring.
  assert (0 <= s * s) by nra. assert (0 <= s * s * (3 - 2 * s)) by (apply Rmult_le_pos; lra). split; [lra|].
  assert (1 - s * s * (3 - 2 * s) = (1 - s) * (1 - s) * (1 + 2 * s)) by ring. assert (0 <= (1 - s) * (1 - s) * (1 + 2 * s)) by (apply Rmult_le_pos; nra). lra.
Qed.
Lemma ease_mono : forall s t, 0 <= s <= t -> t <= 1 -> ease s <= ease t.
Proof.
  intros s t H H'. unfold ease. assert (0 <= (t - s) * (3 * (t + s) - 2 * (t * t + t * s + s * s))); [|nra].
  apply Rmult_le_pos; [lra|]. assert (t * t <= t) by nra. assert (s * s <= s) by nra. assert (t * s <= s) by nra. lra.
Qed.

Lemma clamped2_shape : forall T a b f, 0 < T -> clamped2 T a b f -> forall t, 0 <= t <= T ->
  f t = MkPva (a + (b - a) * ease (t / T)) ((b - a) * (6 * (t / T) * (1 - t / T) / T)) ((b - a) * ((6 - 12 * (t / T)) / T ^ 2)).
Proof.
  intros T a b f HT (c0 & c1 & c2 & c3 & F & A & A' & B & B') t Ht.
  rewrite F in A, A', B, B' by lra. cbn in A, A', B, B'.
  assert (E0 : c0 = a) by lra. assert (E1 : c1 = 0) by lra. subst c0 c1.
  assert (E3 : c3 = -2 * (b - a) / T ^ 3).
  { apply (Rmult_eq_reg_r (T ^ 3)); [|apply pow_nonzero; lra]. field_simplify; [|lra]. nra. }
  assert (E2 : c2 = 3 * (b - a) / T ^ 2).
  { apply (Rmult_eq_reg_r (T ^ 2)); [|apply pow_nonzero; lra]. field_simplify; [|lra]. nra. }
  rewrite F by exact Ht. unfold cubic, ease. rewrite E2, E3. f_equal; field; lra.
Qed.

(** Three points, both ends at zero. *)
Section Three.
Variables T1 T2 h v : R.
Hypothesis H1 : 0 < T1.
Hypothesis H2 : 0 < T2.
Variable f : R -> pva.
Hypothesis C : clamped3 T1 (T1 + T2) 0 h 0 v f.
(** Velocity at the knot. *)
Definition knot : R := 3 / 2 * h * (/ T1 - / T2) - v * T1 / (2 * (T1 + T2)).
Lemma three_rise : forall t, 0 <= t <= T1 -> let s := t / T1 in
  p_p (f t) = s ^ 2 * (h * (3 - 2 * s) - (1 - s) * (T1 * knot)).
Proof.
  intros t Ht s. destruct C as (a0 & a1 & a2 & a3 & b0 & b1 & b2 & b3 & F & G & A & A' & M & B & B' & K).
  rewrite F in A, A', M by lra. rewrite G in B, B' by lra. cbn in A, A', M, B, B'. unfold cubic in K. injection K as K0 K1 K2.
  replace (T1 + T2 - T1) with T2 in B, B' by ring.
  assert (a0 = 0) by lra. assert (a1 = 0) by lra. subst a0 a1.
  assert (E1 : b1 = knot).
  { unfold knot. 
    assert (Q0 : b0 = h) by lra.
    assert (Q1 : b2 * T1 ^ 2 = 2 * b1 * T1 - 3 * h) by nra.
    assert (Q2 : b2 * T2 ^ 2 = - 3 * h - 2 * b1 * T2 - v * T2) by nra.
    assert (Q3 : 2 * b1 * (T1 * T2 * (T1 + T2)) = 3 * h * (T2 ^ 2 - T1 ^ 2) - v * (T1 ^ 2 * T2)).
    { assert (b2 * T1 ^ 2 * T2 ^ 2 = (2 * b1 * T1 - 3 * h) * T2 ^ 2) by (rewrite Q1; ring).
      assert (b2 * T2 ^ 2 * T1 ^ 2 = (- 3 * h - 2 * b1 * T2 - v * T2) * T1 ^ 2) by (rewrite Q2; ring). nra. }
    assert (N : 0 < T1 * T2 * (T1 + T2)) by (repeat apply Rmult_lt_0_compat; lra).
    apply (Rmult_eq_reg_r (2 * (T1 * T2 * (T1 + T2)))); [|lra]. 
    replace (b1 * (2 * (T1 * T2 * (T1 + T2)))) with (2 * b1 * (T1 * T2 * (T1 + T2))) by ring. rewrite Q3. field. lra. }
  rewrite <- E1. assert (E3 : a3 * T1 ^ 3 = b1 * T1 - 2 * h) by nra. assert (E2 : a2 * T1 ^ 2 = 3 * h - b1 * T1) by nra.
  rewrite F by exact Ht. unfold s. cbn.
  replace (0 + 0 * t + a2 * (t * (t * 1)) + a3 * (t * (t * (t * 1)))) with ((t / T1) ^ 2 * (a2 * T1 ^ 2) + (t / T1) ^ 3 * (a3 * T1 ^ 3)) by (field; lra).
  rewrite E2, E3. field. lra.
Qed.
Lemma three_fall : forall t, T1 <= t <= T1 + T2 -> let u := (t - T1) / T2 in
  p_p (f t) = (1 - u) * ((1 - u) * (h * (1 + 2 * u) + T2 * knot * u) - u ^ 2 * (T2 * v)).
Proof.
  intros t Ht u. destruct C as (a0 & a1 & a2 & a3 & b0 & b1 & b2 & b3 & F & G & A & A' & M & B & B' & K).
  rewrite F in A, A', M by lra. rewrite G in B, B' by lra. cbn in A, A', M, B, B'. unfold cubic in K. injection K as K0 K1 K2.
  replace (T1 + T2 - T1) with T2 in B, B' by ring.
  assert (a0 = 0) by lra. assert (a1 = 0) by lra. subst a0 a1.
  assert (Q0 : b0 = h) by lra.
  assert (E1 : b1 = knot).
  { unfold knot. 
    assert (Q1 : b2 * T1 ^ 2 = 2 * b1 * T1 - 3 * h) by nra.
    assert (Q2 : b2 * T2 ^ 2 = - 3 * h - 2 * b1 * T2 - v * T2) by nra.
    assert (Q3 : 2 * b1 * (T1 * T2 * (T1 + T2)) = 3 * h * (T2 ^ 2 - T1 ^ 2) - v * (T1 ^ 2 * T2)).
    { assert (b2 * T1 ^ 2 * T2 ^ 2 = (2 * b1 * T1 - 3 * h) * T2 ^ 2) by (rewrite Q1; ring).
      assert (b2 * T2 ^ 2 * T1 ^ 2 = (- 3 * h - 2 * b1 * T2 - v * T2) * T1 ^ 2) by (rewrite Q2; ring). nra. }
    assert (N : 0 < T1 * T2 * (T1 + T2)) by (repeat apply Rmult_lt_0_compat; lra).
    apply (Rmult_eq_reg_r (2 * (T1 * T2 * (T1 + T2)))); [|lra]. 
    replace (b1 * (2 * (T1 * T2 * (T1 + T2)))) with (2 * b1 * (T1 * T2 * (T1 + T2))) by ring. rewrite Q3. field. lra. }
  rewrite <- E1.
  assert (E2 : b2 * T2 ^ 2 = - 3 * h - 2 * b1 * T2 - v * T2) by nra. assert (E3 : b3 * T2 ^ 3 = 2 * h + b1 * T2 + v * T2) by nra.
  rewrite G by exact Ht. unfold u. cbn. set (w := t - T1).
  replace (b0 + b1 * w + b2 * (w * (w * 1)) + b3 * (w * (w * (w * 1)))) with (b0 + b1 * w + (w / T2) ^ 2 * (b2 * T2 ^ 2) + (w / T2) ^ 3 * (b3 * T2 ^ 3)) by (field; lra).
  rewrite E2, E3, Q0. field. lra.
Qed.
End Three.

(** Height as a multiple of the step height. *)
Definition hump (K u : R) : R := (1 - u) ^ 2 * (1 + K * u).
Definition steep (b : R) : R := 3 / (2 * b) - 1.
Lemma hump_max : forall K u, 2 <= K -> u <= 1 -> hump K u <= 4 * (K + 1) ^ 3 / (27 * K ^ 2).
Proof.
  intros K u HK Hu. assert (E : 4 * (K + 1) ^ 3 / (27 * K ^ 2) - hump K u = K * (u - (K - 2) / (3 * K)) ^ 2 * ((4 * K + 1) / (3 * K) - u))
    by (unfold hump; field; lra).
  assert (P : 0 <= K * (u - (K - 2) / (3 * K)) ^ 2) by (apply Rmult_le_pos; [lra|apply pow2_ge_0]).
  assert (Q : 0 <= (4 * K + 1) / (3 * K) - u).
  { assert (1 <= (4 * K + 1) / (3 * K)); [|lra]. apply (Rmult_le_reg_r (3 * K)); [lra|]. unfold Rdiv. rewrite Rmult_assoc, Rinv_l by lra. lra. }
  pose proof (Rmult_le_pos _ _ P Q). lra.
Qed.
Lemma steep_overshoot : forall b, 0 < b <= 1 / 2 -> 4 * (steep b + 1) ^ 3 / (27 * steep b ^ 2) = 2 / (b * (3 - 2 * b) ^ 2).
Proof. intros b H. unfold steep. field. repeat split; try lra. Qed.
Lemma steep_anti : forall a b, 0 < a <= b -> steep b <= steep a.
Proof. intros a b H. unfold steep. assert (3 / (2 * b) <= 3 / (2 * a)); [|lra]. apply Rmult_le_compat_l; [lra|]. apply Rinv_le_contravar; lra. Qed.
Lemma steep_half : forall b, 0 < b <= 1 / 2 -> 2 <= steep b.
Proof. intros b H. pose proof (steep_anti b (1 / 2) H). assert (steep (1 / 2) = 2) by (unfold steep; field). lra. Qed.
Lemma steep_pos : forall b, 0 < b < 1 -> 1 / 2 <= steep b.
Proof. intros b H. pose proof (steep_anti b 1 ltac:(lra)). assert (steep 1 = 1 / 2) by (unfold steep; field). lra. Qed.
Lemma hump_range : forall b a u, 0 < a < 1 -> b = a \/ b = 1 - a -> 0 <= u <= 1 -> 0 <= hump (steep b) u <= overshoot a.
Proof.
  intros b a u Ha Hb Hu. set (m := Rmin a (1 - a)).
  assert (M : 0 < m <= 1 / 2 /\ m <= b) by (unfold m, Rmin; destruct (Rle_dec a (1 - a)); destruct Hb; lra).
  pose proof (steep_anti m b ltac:(lra)) as A. pose proof (steep_pos b ltac:(destruct Hb; lra)). split.
  - unfold hump. apply Rmult_le_pos; [apply pow2_ge_0|nra].
  - apply Rle_trans with (hump (steep m) u).
    + unfold hump. apply Rmult_le_compat_l; [apply pow2_ge_0|nra].
    + unfold overshoot. fold m. cbv zeta. rewrite <- steep_overshoot by lra. apply hump_max; [apply steep_half; lra|lra].
Qed.

Section Height.
Variables a T h v : R.
Hypothesis Ha : 0 < a < 1.
Hypothesis HT : 0 < T.
Variable f : R -> pva.
Hypothesis C : clamped3 (a * T) T 0 h 0 v f.
Local Lemma T1_pos : 0 < a * T < T. Proof. clear C. nra. Qed.
Local Lemma C' : clamped3 (a * T) (a * T + (1 - a) * T) 0 h 0 v f.
Proof. replace (a * T + (1 - a) * T) with T by ring. exact C. Qed.
Lemma rise_at : forall s, 0 <= s <= 1 ->
  p_p (f (s * (a * T))) = h * hump (steep (1 - a)) (1 - s) + s ^ 2 * (1 - s) * (v * (a ^ 2 * T) / 2).
Proof.
  intros s Hs. pose proof T1_pos. rewrite (three_rise (a * T) ((1 - a) * T) h v ltac:(lra) ltac:(nra) f C' (s * (a * T))) by nra.
  cbv zeta. replace (s * (a * T) / (a * T)) with s by (field; lra). unfold knot, hump, steep. field. repeat split; nra.
Qed.
Lemma fall_at : forall u, 0 <= u <= 1 ->
  p_p (f (a * T + u * ((1 - a) * T))) = h * hump (steep a) u - u * (1 - u) * (v * (1 - a) * T) * (u + (1 - u) * (a / 2)).
Proof.
  intros u Hu. pose proof T1_pos. rewrite (three_fall (a * T) ((1 - a) * T) h v ltac:(lra) ltac:(nra) f C' (a * T + u * ((1 - a) * T))) by nra.
  cbv zeta. replace ((a * T + u * ((1 - a) * T) - a * T) / ((1 - a) * T)) with u by (field; lra). unfold knot, hump, steep. field. repeat split; nra.
Qed.
Lemma time_cases : forall t, 0 <= t <= T -> (exists s, 0 <= s <= 1 /\ t = s * (a * T)) \/ (exists u, 0 <= u <= 1 /\ t = a * T + u * ((1 - a) * T)).
Proof.
  intros t Ht. pose proof T1_pos. destruct (Rle_or_lt t (a * T)) as [E|E].
  - left. exists (t / (a * T)). split; [|field; lra]. split.
    + apply Rmult_le_pos; [lra|]. left. apply Rinv_0_lt_compat. lra.
    + apply (Rmult_le_reg_r (a * T)); [lra|]. unfold Rdiv. rewrite Rmult_assoc, Rinv_l by lra. lra.
  - right. exists ((t - a * T) / ((1 - a) * T)). assert (0 < (1 - a) * T) by nra. split; [|field; lra]. split.
    + apply Rmult_le_pos; [lra|]. left. apply Rinv_0_lt_compat. lra.
    + apply (Rmult_le_reg_r ((1 - a) * T)); [lra|]. unfold Rdiv. rewrite Rmult_assoc, Rinv_l by lra. lra.
Qed.
Lemma bump : v = 0 -> forall t, 0 <= t <= T -> exists g, 0 <= g <= overshoot a /\ p_p (f t) = h * g.
Proof.
  intros Hv t Ht. destruct (time_cases t Ht) as [(s & Hs & ->)|(u & Hu & ->)].
  - exists (hump (steep (1 - a)) (1 - s)). split; [apply (hump_range (1 - a)); auto; lra|]. rewrite rise_at by exact Hs. rewrite Hv. field.
  - exists (hump (steep a) u). split; [apply (hump_range a); auto; lra|]. rewrite fall_at by exact Hu. rewrite Hv. field.
Qed.
Lemma bump_reached : v = 0 -> exists t, 0 <= t <= T /\ p_p (f t) = h * overshoot a.
Proof.
  intros Hv. set (m := Rmin a (1 - a)). assert (M : 0 < m <= 1 / 2) by (unfold m, Rmin; destruct (Rle_dec a (1 - a)); lra).
  pose proof (steep_half m M) as K. set (u := (steep m - 2) / (3 * steep m)).
  assert (Hu : 0 <= u <= 1).
  { unfold u. split; [apply Rmult_le_pos; [lra|left; apply Rinv_0_lt_compat; lra]|].
    apply (Rmult_le_reg_r (3 * steep m)); [lra|]. unfold Rdiv. rewrite Rmult_assoc, Rinv_l by lra. lra. }
  assert (E : hump (steep m) u = overshoot a).
  { unfold overshoot. fold m. cbv zeta. rewrite <- steep_overshoot by lra. unfold hump, u. field. lra. }
  pose proof T1_pos. destruct (Rle_dec a (1 - a)) as [L|L].
  - assert (m = a) by (unfold m, Rmin; destruct (Rle_dec a (1 - a)); lra). exists (a * T + u * ((1 - a) * T)). split; [nra|].
    rewrite fall_at by exact Hu. rewrite <- E, H0, Hv. field.
  - assert (m = 1 - a) by (unfold m, Rmin; destruct (Rle_dec a (1 - a)); lra). exists ((1 - u) * (a * T)). split; [nra|].
    rewrite rise_at by lra. rewrite <- E, H0, Hv. replace (1 - (1 - u)) with u by ring. field.
Qed.
Hypothesis Hh : 0 <= h.
Lemma above : v <= 0 -> - v * (a ^ 2 * (1 - a) * T) <= 3 * h -> forall t, 0 <= t <= T -> 0 <= p_p (f t).
Proof.
  intros Hv Hw t Ht. destruct (time_cases t Ht) as [(s & Hs & ->)|(u & Hu & ->)].
  - rewrite rise_at by exact Hs.
    assert (E : h * hump (steep (1 - a)) (1 - s) + s ^ 2 * (1 - s) * (v * (a ^ 2 * T) / 2)
      = s ^ 2 * (h * s + (1 - s) * ((3 * h + v * (a ^ 2 * (1 - a) * T)) / (2 * (1 - a))))) by (unfold hump, steep; field; lra).
    rewrite E. apply Rmult_le_pos; [apply pow2_ge_0|]. apply Rplus_le_le_0_compat; [nra|]. apply Rmult_le_pos; [lra|].
    apply Rmult_le_pos; [nra|]. left. apply Rinv_0_lt_compat. lra.
  - rewrite fall_at by exact Hu. pose proof (hump_range a a u Ha (or_introl eq_refl) Hu) as [G _].
    assert (0 <= h * hump (steep a) u) by (apply Rmult_le_pos; assumption).
    assert (0 <= u * (1 - u) * (- v * (1 - a) * T) * (u + (1 - u) * (a / 2))).
    { repeat apply Rmult_le_pos; try lra. nra. }
    nra.
Qed.
Lemma below_end : 0 < v -> exists t, 0 <= t < T /\ p_p (f t) < 0.
Proof.
  intros Hv. pose proof T1_pos. pose proof (steep_pos a Ha) as K. set (M := 1 + h * (1 + steep a)). assert (0 < M) by (unfold M; nra).
  set (w := v * (1 - a) * T). assert (Hw : 0 < w) by (unfold w; repeat apply Rmult_lt_0_compat; lra).
  set (e := Rmin (1 / 2) (w / (8 * M))).
  assert (He : 0 < e <= 1 / 2 /\ e * M <= w / 8).
  { assert (0 < w / (8 * M)) by (apply Rmult_lt_0_compat; [lra|apply Rinv_0_lt_compat; lra]).
    assert (e <= w / (8 * M)) by apply Rmin_r. split; [split; [apply Rmin_glb_lt; lra|apply Rmin_l]|].
    replace (w / 8) with (w / (8 * M) * M) by (field; lra). apply Rmult_le_compat_r; lra. }
  exists (a * T + (1 - e) * ((1 - a) * T)). split; [nra|]. rewrite fall_at by lra. fold w. unfold hump.
  replace (1 - (1 - e)) with e by ring.
  assert (h * (e ^ 2 * (1 + steep a * (1 - e))) <= e * (e * M)).
  { replace (h * (e ^ 2 * (1 + steep a * (1 - e)))) with (e * (e * (h * (1 + steep a * (1 - e))))) by ring.
    apply Rmult_le_compat_l; [lra|]. apply Rmult_le_compat_l; [lra|]. unfold M.
    assert (h * (1 + steep a * (1 - e)) <= h * (1 + steep a)) by (apply Rmult_le_compat_l; [lra|nra]). lra. }
  assert (w / 4 <= (1 - e) * w * ((1 - e) + e * (a / 2))).
  { assert (1 / 4 <= (1 - e) * ((1 - e) + e * (a / 2))).
    { assert (0 <= e * (a / 2)) by nra. nra. } nra. }
  nra.
Qed.
Lemma below_start : 3 * h < - v * (a ^ 2 * (1 - a) * T) -> exists t, 0 <= t < T /\ p_p (f t) < 0.
Proof.
  intros Hw. pose proof T1_pos. set (d := - (3 * h + v * (a ^ 2 * (1 - a) * T)) / (2 * (1 - a))).
  assert (Hd : 0 < d) by (unfold d; apply Rmult_lt_0_compat; [lra|apply Rinv_0_lt_compat; lra]).
  set (s := Rmin (1 / 2) (d / (4 * (h + 1)))).
  assert (Hs : 0 < s <= 1 / 2 /\ s * (h + 1) <= d / 4).
  { assert (0 < d / (4 * (h + 1))) by (apply Rmult_lt_0_compat; [lra|apply Rinv_0_lt_compat; lra]).
    assert (s <= d / (4 * (h + 1))) by apply Rmin_r. split; [split; [apply Rmin_glb_lt; lra|apply Rmin_l]|].
    replace (d / 4) with (d / (4 * (h + 1)) * (h + 1)) by (field; lra). apply Rmult_le_compat_r; lra. }
  exists (s * (a * T)). split; [nra|]. rewrite rise_at by lra.
  assert (E : h * hump (steep (1 - a)) (1 - s) + s ^ 2 * (1 - s) * (v * (a ^ 2 * T) / 2) = s ^ 2 * (h * s - (1 - s) * d))
    by (unfold hump, steep, d; field; lra).
  rewrite E. assert (0 < s ^ 2) by (apply pow_lt; lra). assert (h * s - (1 - s) * d < 0) by nra. nra.
Qed.
End Height.

(** A loop whose swings agree on non-empty phases. *)
Lemma feet_loop_ext : forall (sw sw' : nat -> step -> step -> res (list sample)) (l : nat -> step -> step -> list sample) ph,
  (forall n s0 s1, sw' n s0 s1 = Ok (l n s0 s1)) -> (forall n s0 s1, length (l n s0 s1) = n) ->
  (forall n s0 s1, (1 <= n)%nat -> sw n s0 s1 = sw' n s0 s1) ->
  forall ends inst st T, (forall i a b, nth_error (inst :: ends) i = Some a -> nth_error (inst :: ends) (S i) = Some b -> (a < b)%nat) ->
  feet_loop sw' ph ends inst st = Ok T -> feet_loop sw ph ends inst st = Ok T.
Proof.
  intros sw sw' l ph El Ll Es ends. induction ends as [|e ends IH]; intros inst st T Hd H; [exact H|].
  assert (L : (inst < e)%nat) by (apply (Hd 0%nat); reflexivity).
  assert (Hd' : forall i a b, nth_error (e :: ends) i = Some a -> nth_error (e :: ends) (S i) = Some b -> (a < b)%nat) by (intros i a b; apply (Hd (S i))).
  cbn [feet_loop] in *. destruct (nth_error ph inst) as [p|]; [|exact H].
  assert (Q : forall s0 st', (if Nat.ltb (length ph) (inst + length (repeat (rest_at s0) (e - inst))) then UB
     else do rest <- feet_loop sw' ph ends (inst + length (repeat (rest_at s0) (e - inst))) st'; Ok (repeat (rest_at s0) (e - inst) ++ rest)) = Ok T ->
     (if Nat.ltb (length ph) (inst + length (repeat (rest_at s0) (e - inst))) then UB
     else do rest <- feet_loop sw ph ends (inst + length (repeat (rest_at s0) (e - inst))) st'; Ok (repeat (rest_at s0) (e - inst) ++ rest)) = Ok T).
  { intros s0 st'. rewrite repeat_length. replace (inst + (e - inst))%nat with e by lia. destruct (Nat.ltb _ _); [auto|].
    destruct (feet_loop sw' ph ends e st') as [rest| |] eqn:Er; cbn [rbind]; intros HH; try discriminate.
    rewrite (IH _ _ _ Hd' Er). cbn [rbind]. exact HH. }
  destruct st as [|s0 st']; [destruct p; exact H|].
  destruct p; try (apply Q; exact H).
  destruct (sub_size e inst) as [n| |] eqn:En; cbn [rbind] in *; try discriminate.
  assert (n = (e - inst)%nat) by (unfold sub_size in En; destruct (Nat.leb inst e); congruence).
  destruct st' as [|s1 st'']; [exact H|]. rewrite Es by lia. rewrite El in *. cbn [rbind] in *.
  rewrite Ll in *. replace (inst + n)%nat with e in * by lia. destruct (Nat.ltb _ _); [auto|].
  destruct (feet_loop sw' ph ends e (s1 :: st'')) as [rest| |] eqn:Er; cbn [rbind] in *; try discriminate.
  rewrite (IH _ _ _ Hd' Er). exact H.
Qed.

(** The samples of one swing. *)
Definition swing_list (spl2 : R -> R -> R -> R -> pva) (spl3 : R -> R -> R -> R -> R -> R -> R -> pva) (c : feetcfg) (dT : R) (n : nat) (s0 s1 : step) : list sample :=
  let T := INR n * dT in let T1 := f_apex c * T in
  map (fun k => let t := INR k * dT in
         MkSample (spl2 T (vx (st_pos s0)) (vx (st_pos s1)) t) (spl2 T (vy (st_pos s0)) (vy (st_pos s1)) t)
                  (spl3 T1 T 0 (f_height c) 0 (f_landing c) t) (spl3 T1 T 0 (f_pitch c) 0 0 t)
                  (spl2 T (st_angle s0) (st_angle s1) t)) (seq 0 n).
Lemma swing_list_length : forall spl2 spl3 c dT n s0 s1, length (swing_list spl2 spl3 c dT n s0 s1) = n.
Proof. intros. unfold swing_list. rewrite map_length, seq_length. reflexivity. Qed.
Lemma swing_list_ok : forall spl2 spl3 c dT n s0 s1, feet_ok c -> 0 < dT -> (1 <= n)%nat ->
  swing_spline spl2 spl3 c dT n s0 s1 = Ok (swing_list spl2 spl3 c dT n s0 s1).
Proof.
  intros spl2 spl3 c dT n s0 s1 Hc Hd Hn. pose proof (fk_apex c Hc). assert (0 < INR n) by (apply lt_0_INR; lia).
  assert (0 < INR n * dT) by (apply Rmult_lt_0_compat; lra). unfold swing_spline.
  rewrite !reqb_f by nra. reflexivity.
Qed.
Lemma swing_list_nth : forall spl2 spl3 c dT n s0 s1 k x, nth_error (swing_list spl2 spl3 c dT n s0 s1) k = Some x ->
  (k < n)%nat /\ let T := INR n * dT in let T1 := f_apex c * T in let t := INR k * dT in
  x = MkSample (spl2 T (vx (st_pos s0)) (vx (st_pos s1)) t) (spl2 T (vy (st_pos s0)) (vy (st_pos s1)) t)
               (spl3 T1 T 0 (f_height c) 0 (f_landing c) t) (spl3 T1 T 0 (f_pitch c) 0 0 t) (spl2 T (st_angle s0) (st_angle s1) t).
Proof.
  intros spl2 spl3 c dT n s0 s1 k x H. assert (L : (k < n)%nat).
  { rewrite <- (swing_list_length spl2 spl3 c dT n s0 s1). apply nth_error_Some. congruence. }
  split; [exact L|]. unfold swing_list in H. rewrite nth_error_map in H.
  rewrite (nth_error_nth' (seq 0 n) 0%nat) in H by (rewrite seq_length; exact L). rewrite seq_nth in H by exact L. cbn [option_map Nat.add] in H.
  injection H as <-. reflexivity.
Qed.
Lemma sample_time : forall n k dT, 0 < dT -> (k < n)%nat -> 0 < INR n * dT /\ 0 <= INR k * dT <= INR n * dT /\ 0 <= INR k * dT / (INR n * dT) <= 1.
Proof.
  intros n k dT Hd L. assert (0 < INR n) by (apply lt_0_INR; lia). assert (0 < INR n * dT) by (apply Rmult_lt_0_compat; lra).
  assert (0 <= INR k) by apply pos_INR. assert (INR k < INR n) by (apply lt_INR; exact L). split; [lra|]. assert (0 <= INR k * dT <= INR n * dT) by nra.
  split; [lra|]. apply norm_range; lra.
Qed.
