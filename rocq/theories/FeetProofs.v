(** Lemmas about the feet trajectories. *)
From Coq Require Import String Reals Lra Lia ZArith List Bool.
From Verif Require Import Prelude Rounding FootPrint GenPhases GenSpec GenProofs GenProofs2 FeetTraj FeetSpec.
Import ListNotations.
Open Scope R_scope.

(** ** Minimum jerk *)
Definition poly (n : R) : R := 6 * n ^ 5 - 15 * n ^ 4 + 10 * n ^ 3.
Lemma poly_range : forall n, 0 <= n <= 1 -> 0 <= poly n <= 1.
Proof.
  intros n H. unfold poly. split.
  - replace (6 * n ^ 5 - 15 * n ^ 4 + 10 * n ^ 3) with (n ^ 3 * (6 * n ^ 2 - 15 * n + 10)) by ring.
    apply Rmult_le_pos; [apply pow_le; lra|nra].
  - assert (0 <= (1 - n) ^ 3 * (6 * n ^ 2 + 3 * n + 1)); [|nra].
    apply Rmult_le_pos; [apply pow_le; lra|nra].
Qed.
Lemma norm_range : forall t d, 0 < d -> 0 <= t <= d -> 0 <= t / d <= 1.
Proof.
  intros t d Hd H. split; [apply div_nonneg; lra|]. apply (Rmult_le_reg_r d); [lra|]. field_simplify; lra.
Qed.
Lemma min_jerk_ok : forall i f t d, 0 < d -> 0 <= t <= d -> exists x, min_jerk i f t d = Ok x
  /\ p_p x = i + poly (t / d) * (f - i)
  /\ p_v x = (30 * (t / d) ^ 4 - 60 * (t / d) ^ 3 + 30 * (t / d) ^ 2) / d * (f - i)
  /\ p_a x = (120 * (t / d) ^ 3 - 180 * (t / d) ^ 2 + 60 * (t / d)) / d ^ 2 * (f - i).
Proof.
  intros i f t d Hd H. pose proof (norm_range t d Hd H). unfold min_jerk. cbv zeta.
  destruct (Reqb d 0) eqn:E; [apply Reqb_true in E; lra|].
  destruct (Rltb (t / d) 0) eqn:E1; [apply Rltb_true in E1; lra|].
  destruct (Rgtb (t / d) 1) eqn:E2; [apply Rltb_true in E2; lra|]. cbn [orb]. eexists. split; [reflexivity|]. cbn [p_p p_v p_a].
  unfold poly. repeat split; unfold Rdiv; ring.
Qed.
Lemma min_jerk_fails : forall i f t d, 0 < d -> (t < 0 \/ d < t) -> min_jerk i f t d = Fail.
Proof.
  intros i f t d Hd H. unfold min_jerk. cbv zeta. destruct (Reqb d 0) eqn:E; [apply Reqb_true in E; lra|].
  destruct H as [H|H].
  - assert (t / d < 0). { apply (Rmult_lt_reg_r d); [lra|]. field_simplify; lra. }
    replace (Rltb (t / d) 0) with true by (symmetry; apply Rltb_true; lra). reflexivity.
  - assert (1 < t / d). { apply (Rmult_lt_reg_r d); [lra|]. field_simplify; lra. }
    replace (Rgtb (t / d) 1) with true by (symmetry; apply Rltb_true; lra). rewrite orb_true_r. reflexivity.
Qed.

(** ** Settings *)
Record feet_ok (c : feetcfg) : Prop := { fk_apex : 0 < f_apex c < 1; fk_h : 0 <= f_height c \/ f_height c = -1 }.
Lemma feet_history_ok : forall ops, feet_ok (feet_history ops).
Proof.
  intros ops. unfold feet_history. assert (G : forall l c, feet_ok c -> feet_ok (fold_left (fun c o => fst (feet_call c o)) l c)).
  { induction l as [|o l IH]; intros c H; cbn; auto. apply IH. destruct H as [A B]. destruct o; cbn; try (split; cbn; auto; fail).
    - destruct (Rltb h 0) eqn:E; cbn; [split; auto|]. apply Rltb_false in E. split; cbn; auto.
    - unfold Rgeb. destruct (Rleb r 0) eqn:E1; cbn; [split; auto|]. destruct (Rleb 1 r) eqn:E2; cbn; [split; auto|].
      apply Rleb_false in E1. apply Rleb_false in E2. split; cbn; auto. }
  apply G. split; cbn; lra.
Qed.

(** ** One swing *)
Lemma collect_map_ok : forall (A B : Type) (f : A -> res B) l, (forall x, In x l -> exists y, f x = Ok y) ->
  exists ys, collect (map f l) = Ok ys /\ length ys = length l
    /\ forall i x y, nth_error l i = Some x -> nth_error ys i = Some y -> f x = Ok y.
Proof.
  intros A B f l. induction l as [|a l IH]; intros H; cbn.
  - exists []. split; auto. split; auto. intros [|i] x y E; discriminate.
  - destruct (H a) as [y Ey]; [left; auto|]. rewrite Ey. cbn.
    destruct IH as (ys & E & L & P); [intros; apply H; right; auto|]. rewrite E. cbn. exists (y :: ys). split; auto. split; [cbn; congruence|].
    intros [|i] x z E1 E2; cbn in *; [congruence|eauto].
Qed.
Lemma collect_app : forall (A : Type) (a b : list (res A)), collect (a ++ b) =
  do x <- collect a ; do y <- collect b ; Ok (x ++ y).
Proof.
  intros A a b. induction a as [|r a IH]; cbn.
  - destruct (collect b); reflexivity.
  - destruct r; cbn; auto. rewrite IH. destruct (collect a); cbn; auto. destruct (collect b); reflexivity.
Qed.

Lemma apex_count : forall apex n, 0 < apex < 1 -> (nround (INR n * apex) <= n)%nat.
Proof.
  intros apex n H. rewrite <- (nround_INR n) at 2. apply nround_mono. pose proof (pos_INR n). split; [apply Rmult_le_pos; lra|nra].
Qed.

(** Times at which the halves are evaluated. *)
Lemma up_times : forall apex n k dT, 0 < apex < 1 -> 0 < dT -> (k < nround (INR n * apex))%nat -> 
  0 <= INR k * dT <= INR n * dT * apex /\ 0 < INR n * dT * apex.
Proof.
  intros apex n k dT Ha Hd Hk. pose proof (pos_INR n). pose proof (pos_INR k).
  assert (Hx : 0 <= INR n * apex) by (apply Rmult_le_pos; lra).
  pose proof (nround_bounds _ Hx) as B. set (r := nround (INR n * apex)) in *.
  assert (INR k + 1 <= INR r) by (rewrite <- S_INR; apply le_INR; lia).
  assert (A : INR k < INR n * apex) by lra.
  assert (0 <= INR k * dT) by (apply Rmult_le_pos; lra).
  assert (INR k * dT < INR n * apex * dT) by (apply Rmult_lt_compat_r; lra). lra.
Qed.
Lemma down_times : forall apex n k dT, 0 < apex < 1 -> 0 < dT -> (nround (INR n * apex) <= k < n)%nat -> 
  0 <= INR k * dT - INR (nround (INR n * apex)) * dT <= INR n * dT * (1 - apex) /\ 0 < INR n * dT * (1 - apex).
Proof.
  intros apex n k dT Ha Hd Hk. pose proof (pos_INR n).
  assert (Hx : 0 <= INR n * apex) by (apply Rmult_le_pos; lra).
  pose proof (nround_bounds _ Hx) as B. set (r := nround (INR n * apex)) in *.
  assert (INR r <= INR k) by (apply le_INR; lia). assert (INR k + 1 <= INR n) by (rewrite <- S_INR; apply le_INR; lia).
  assert (A : INR k - INR r < INR n * (1 - apex)) by lra.
  replace (INR k * dT - INR r * dT) with ((INR k - INR r) * dT) by ring.
  assert (0 <= (INR k - INR r) * dT) by (apply Rmult_le_pos; lra).
  assert ((INR k - INR r) * dT < INR n * (1 - apex) * dT) by (apply Rmult_lt_compat_r; lra).
  lra.
Qed.

Definition swing_inv (c : feetcfg) (dT : R) (n : nat) (s0 s1 : step) (k : nat) (x : sample) : Prop :=
  let t := INR k * dT in let len := INR n * dT in
  min_jerk (vx (st_pos s0)) (vx (st_pos s1)) t len = Ok (s_x x)
  /\ min_jerk (vy (st_pos s0)) (vy (st_pos s1)) t len = Ok (s_y x)
  /\ min_jerk (st_angle s0) (st_angle s1) t len = Ok (s_yaw x)
  /\ ((k < nround (INR n * f_apex c))%nat /\ min_jerk 0 (f_height c) t (len * f_apex c) = Ok (s_z x)
        /\ min_jerk 0 (f_pitch c) t (len * f_apex c) = Ok (s_pitch x)
      \/ (nround (INR n * f_apex c) <= k)%nat
        /\ min_jerk (f_height c) 0 (t - INR (nround (INR n * f_apex c)) * dT) (len * (1 - f_apex c)) = Ok (s_z x)
        /\ min_jerk (f_pitch c) 0 (t - INR (nround (INR n * f_apex c)) * dT) (len * (1 - f_apex c)) = Ok (s_pitch x)).

Lemma swing_sample_ok : forall dT n k s0 s1 z0 z1 q0 q1 t1 half, 0 < dT -> (k < n)%nat -> 0 <= t1 <= half -> 0 < half ->
  exists x, swing_sample dT n k s0 s1 z0 z1 q0 q1 t1 half = Ok x
  /\ min_jerk (vx (st_pos s0)) (vx (st_pos s1)) (INR k * dT) (INR n * dT) = Ok (s_x x)
  /\ min_jerk (vy (st_pos s0)) (vy (st_pos s1)) (INR k * dT) (INR n * dT) = Ok (s_y x)
  /\ min_jerk (st_angle s0) (st_angle s1) (INR k * dT) (INR n * dT) = Ok (s_yaw x)
  /\ min_jerk z0 z1 t1 half = Ok (s_z x) /\ min_jerk q0 q1 t1 half = Ok (s_pitch x).
Proof.
  intros dT n k s0 s1 z0 z1 q0 q1 t1 half Hd Hk Ht Hh. unfold swing_sample. cbv zeta.
  assert (K1 : INR k + 1 <= INR n) by (rewrite <- S_INR; apply le_INR; lia). pose proof (pos_INR k).
  assert (0 <= INR k * dT) by (apply Rmult_le_pos; lra).
  assert (INR k * dT <= INR n * dT) by (apply Rmult_le_compat_r; lra).
  assert (0 < INR n * dT) by (apply Rmult_lt_0_compat; lra).
  destruct (min_jerk_ok (vx (st_pos s0)) (vx (st_pos s1)) (INR k * dT) (INR n * dT)) as (x & Ex & _); try lra.
  destruct (min_jerk_ok (vy (st_pos s0)) (vy (st_pos s1)) (INR k * dT) (INR n * dT)) as (y & Ey & _); try lra.
  destruct (min_jerk_ok (st_angle s0) (st_angle s1) (INR k * dT) (INR n * dT)) as (w & Ew & _); try lra.
  destruct (min_jerk_ok z0 z1 t1 half) as (z & Ez & _); try lra.
  destruct (min_jerk_ok q0 q1 t1 half) as (q & Eq & _); try lra.
  rewrite Ex, Ey, Ez, Eq, Ew. cbn [rbind]. eexists. split; [reflexivity|]. cbn. auto.
Qed.

Lemma swing_ok : forall c dT n s0 s1, feet_ok c -> 0 < dT -> exists out, swing_minjerk c dT n s0 s1 = Ok out /\ length out = n
  /\ forall k x, nth_error out k = Some x -> swing_inv c dT n s0 s1 k x.
Proof.
  intros c dT n s0 s1 [Ha _] Hd. unfold swing_minjerk. cbv zeta. set (n1 := nround (INR n * f_apex c)).
  pose proof (apex_count (f_apex c) n Ha) as Hn. fold n1 in Hn. rewrite collect_app.
  edestruct (collect_map_ok nat sample (fun k => swing_sample dT n k s0 s1 0 (f_height c) 0 (f_pitch c) (INR k * dT) (INR n * dT * f_apex c)) (seq 0 n1))
    as (up & Eu & Lu & Pu).
  { intros k Hk. apply in_seq in Hk. destruct (up_times (f_apex c) n k dT Ha Hd) as [U1 U2]; [lia|].
    destruct (swing_sample_ok dT n k s0 s1 0 (f_height c) 0 (f_pitch c) (INR k * dT) (INR n * dT * f_apex c)) as (x & E & _); auto; try lia. eauto. }
  edestruct (collect_map_ok nat sample (fun k => swing_sample dT n k s0 s1 (f_height c) 0 (f_pitch c) 0 (INR k * dT - INR n1 * dT) (INR n * dT * (1 - f_apex c))) (seq n1 (n - n1)))
    as (dn & Ed & Ld & Pd).
  { intros k Hk. apply in_seq in Hk. destruct (down_times (f_apex c) n k dT Ha Hd) as [U1 U2]; [fold n1; lia|]. fold n1 in U1.
    destruct (swing_sample_ok dT n k s0 s1 (f_height c) 0 (f_pitch c) 0 (INR k * dT - INR n1 * dT) (INR n * dT * (1 - f_apex c))) as (x & E & _); auto; try lia. eauto. }
  rewrite Eu, Ed. cbn [rbind]. exists (up ++ dn). rewrite seq_length in Lu, Ld. split; auto. split; [rewrite app_length; lia|].
  intros k x Hx. destruct (Nat.lt_ge_cases k n1) as [Hk|Hk].
  - rewrite nth_error_app1 in Hx by lia.
    assert (E : nth_error (seq 0 n1) k = Some k). { rewrite nth_error_nth' with (d := 0%nat) by (rewrite seq_length; lia). f_equal. rewrite seq_nth; lia. }
    specialize (Pu _ _ _ E Hx). destruct (up_times (f_apex c) n k dT Ha Hd) as [U1 U2]; [exact Hk|].
    destruct (swing_sample_ok dT n k s0 s1 0 (f_height c) 0 (f_pitch c) (INR k * dT) (INR n * dT * f_apex c)) as (x' & E' & Q); auto; try lia.
    rewrite Pu in E'. injection E' as <-. destruct Q as (Q1 & Q2 & Q3 & Q4 & Q5). unfold swing_inv. cbv zeta. fold n1. repeat (split; [assumption|]). left. auto.
  - rewrite nth_error_app2 in Hx by lia. rewrite Lu in Hx.
    assert (Hl : (k - n1 < length dn)%nat) by (apply nth_error_Some; congruence). rewrite Ld in Hl.
    assert (E : nth_error (seq n1 (n - n1)) (k - n1) = Some k). { rewrite nth_error_nth' with (d := 0%nat) by (rewrite seq_length; lia). f_equal. rewrite seq_nth; lia. }
    specialize (Pd _ _ _ E Hx). destruct (down_times (f_apex c) n k dT Ha Hd) as [U1 U2]; [fold n1; lia|]. fold n1 in U1.
    destruct (swing_sample_ok dT n k s0 s1 (f_height c) 0 (f_pitch c) 0 (INR k * dT - INR n1 * dT) (INR n * dT * (1 - f_apex c))) as (x' & E' & Q); auto; try lia.
    rewrite Pd in E'. injection E' as <-. destruct Q as (Q1 & Q2 & Q3 & Q4 & Q5). unfold swing_inv. cbv zeta. fold n1. repeat (split; [assumption|]). right. auto.
Qed.

Lemma swing_on_the_way : forall c dT n s0 s1 k x, feet_ok c -> 0 <= f_height c -> 0 < dT -> (k < n)%nat -> swing_inv c dT n s0 s1 k x ->
  on_the_way (f_height c) s0 s1 x.
Proof.
  intros c dT n s0 s1 k x [Ha _] Hh Hd Hk (Ex & Ey & Ew & Ez). cbv zeta in *.
  assert (K1 : INR k + 1 <= INR n) by (rewrite <- S_INR; apply le_INR; lia). pose proof (pos_INR k).
  assert (0 <= INR k * dT) by (apply Rmult_le_pos; lra).
  assert (INR k * dT <= INR n * dT) by (apply Rmult_le_compat_r; lra).
  assert (0 < INR n * dT) by (apply Rmult_lt_0_compat; lra).
  split.
  - exists (poly (INR k * dT / (INR n * dT))). split; [apply poly_range, norm_range; lra|].
    destruct (min_jerk_ok (vx (st_pos s0)) (vx (st_pos s1)) (INR k * dT) (INR n * dT)) as (a & E1 & P1 & _); try lra.
    destruct (min_jerk_ok (vy (st_pos s0)) (vy (st_pos s1)) (INR k * dT) (INR n * dT)) as (b & E2 & P2 & _); try lra.
    destruct (min_jerk_ok (st_angle s0) (st_angle s1) (INR k * dT) (INR n * dT)) as (d & E3 & P3 & _); try lra.
    rewrite Ex in E1. rewrite Ey in E2. rewrite Ew in E3. injection E1 as <-. injection E2 as <-. injection E3 as <-. auto.
  - destruct Ez as [(Hk1 & Ez & _)|(Hk1 & Ez & _)].
    + destruct (up_times (f_apex c) n k dT Ha Hd Hk1) as [U1 U2].
      destruct (min_jerk_ok 0 (f_height c) (INR k * dT) (INR n * dT * f_apex c)) as (a & E1 & P1 & _); try lra.
      rewrite Ez in E1. injection E1 as <-. rewrite P1. pose proof (poly_range _ (norm_range _ _ U2 U1)). split; nra.
    + destruct (down_times (f_apex c) n k dT Ha Hd) as [U1 U2]; [lia|].
      destruct (min_jerk_ok (f_height c) 0 (INR k * dT - INR (nround (INR n * f_apex c)) * dT) (INR n * dT * (1 - f_apex c))) as (a & E1 & P1 & _); try lra.
      rewrite Ez in E1. injection E1 as <-. rewrite P1. pose proof (poly_range _ (norm_range _ _ U2 U1)). split; nra.
Qed.

(** ** The loop over phases *)
Section Motion.
Variable B : nat -> nat.
Variable b : bool.
Variable sw : nat -> step -> step -> list sample.
Fixpoint motion (k : nat) (s0 : step) (pl : list tstep) : list sample :=
  match pl with
  | [] => repeat (rest_at s0) (B (2 * k + 1) - B (2 * k))
  | t :: r =>
      repeat (rest_at s0) (B (2 * k + 1) - B (2 * k)) ++
      (if Bool.eqb (t_left t) b then sw (B (2 * k + 2) - B (2 * k + 1)) s0 (t_step t) ++ motion (S k) (t_step t) r
       else repeat (rest_at s0) (B (2 * k + 2) - B (2 * k + 1)) ++ motion (S k) s0 r)
  end.
Hypothesis sw_len : forall n s0 s1, length (sw n s0 s1) = n.

Fixpoint mine (pl : list tstep) : list step :=
  match pl with [] => [] | t :: r => if Bool.eqb (t_left t) b then t_step t :: mine r else mine r end.

Lemma motion_length : forall pl k s0 n, n = (k + length pl)%nat ->
  (forall i j, (i <= j <= 2 * n + 1)%nat -> (B i <= B j)%nat) -> length (motion k s0 pl) = (B (2 * n + 1) - B (2 * k))%nat.
Proof.
  induction pl as [|t r IH]; intros k s0 n En M; cbn [motion length] in *.
  - rewrite repeat_length. replace n with k by lia. reflexivity.
  - pose proof (M (2 * k) (2 * k + 1))%nat. pose proof (M (2 * k + 1) (2 * k + 2))%nat. pose proof (M (2 * k + 2) (2 * n + 1))%nat.
    rewrite app_length, repeat_length. destruct (Bool.eqb _ _); rewrite app_length, (IH (S k) _ n) by (auto; lia);
    rewrite ?repeat_length, ?sw_len; replace (2 * S k)%nat with (2 * k + 2)%nat by lia; lia.
Qed.

Variable ph : list phase.
Variable swing : nat -> step -> step -> res (list sample).
Hypothesis swing_sw : forall n s0 s1, swing n s0 s1 = Ok (sw n s0 s1).

Lemma nth_seg : forall a c p, seg ph a c p -> (a < c)%nat -> nth_error ph a = Some p.
Proof. intros a c p H Hl. apply H. lia. Qed.

Lemma loop_motion : forall pl k s0 n extra, n = (k + length pl)%nat ->
  (forall i, (i <= 2 * n)%nat -> (B i < B (S i))%nat) -> length ph = B (2 * n + 1) ->
  (forall j t, nth_error pl j = Some t ->
     exists p q, seg ph (B (2 * (k + j))) (B (2 * (k + j) + 1)) p /\ p <> Swing
       /\ seg ph (B (2 * (k + j) + 1)) (B (2 * (k + j) + 2)) q /\ (q = Swing <-> t_left t = b)) ->
  (exists p, seg ph (B (2 * n)) (B (2 * n + 1)) p /\ p <> Swing) ->
  feet_loop swing ph (map B (seq (2 * k + 1) (2 * length pl + 1))) (B (2 * k)) (s0 :: mine pl ++ extra) = Ok (motion k s0 pl).
Proof.
  assert (Mono : forall n, (forall i, (i <= 2 * n)%nat -> (B i < B (S i))%nat) -> forall i j, (i <= j <= 2 * n + 1)%nat -> (B i <= B j)%nat).
  { intros n H i j. induction j as [|j IH]; intros Hij; [replace i with 0%nat by lia; lia|].
    destruct (Nat.eq_dec i (S j)) as [->|]; [lia|]. specialize (H j). lia. }
  induction pl as [|t r IH]; intros k s0 n extra En Hs Hl Hw He; cbn [length] in *.
  - replace n with k in * by lia.
    replace (2 * 0 + 1)%nat with 1%nat by lia. cbn [seq map feet_loop].
    destruct He as (p & Sp & Np). pose proof (Hs (2 * k)%nat) as H1. replace (S (2 * k)) with (2 * k + 1)%nat in H1 by lia.
    rewrite (nth_seg _ _ _ Sp) by lia. cbn [mine app]. 
    assert (G : (if Nat.ltb (length ph) (B (2 * k) + length (repeat (rest_at s0) (B (2 * k + 1) - B (2 * k)))) then UB
       else (do rest <- Ok []; Ok (repeat (rest_at s0) (B (2 * k + 1) - B (2 * k)) ++ rest))) = Ok (motion k s0 [])).
    { rewrite repeat_length. destruct (Nat.ltb_spec (length ph) (B (2 * k) + (B (2 * k + 1) - B (2 * k)))); [lia|]. cbn. rewrite app_nil_r. reflexivity. }
    destruct p; try congruence; exact G.
  - replace (2 * S (length r) + 1)%nat with (S (S (2 * length r + 1))) by lia. cbn [seq map].
    destruct (Hw 0%nat t eq_refl) as (p & q & Sp & Np & Sq & Eq). replace (k + 0)%nat with k in * by lia.
    pose proof (Hs (2 * k)%nat) as H1. replace (S (2 * k)) with (2 * k + 1)%nat in * by lia.
    pose proof (Hs (2 * k + 1)%nat) as H2. replace (S (2 * k + 1)) with (2 * k + 2)%nat in * by lia.
    assert (H3 : (B (2 * k + 2) <= B (2 * n + 1))%nat) by (apply Mono with n; auto; lia).
    cbn [motion].
    (* the second interval *)
    assert (G2 : feet_loop swing ph (B (2 * k + 2) :: map B (seq (S (2 * k + 2)) (2 * length r + 1))) (B (2 * k + 1)) (s0 :: mine (t :: r) ++ extra)
      = Ok (if Bool.eqb (t_left t) b then sw (B (2 * k + 2) - B (2 * k + 1)) s0 (t_step t) ++ motion (S k) (t_step t) r
            else repeat (rest_at s0) (B (2 * k + 2) - B (2 * k + 1)) ++ motion (S k) s0 r)).
    { cbn [feet_loop]. rewrite (nth_seg _ _ _ Sq) by lia.
      assert (IHs : forall s, feet_loop swing ph (map B (seq (S (2 * k + 2)) (2 * length r + 1))) (B (2 * k + 2)) (s :: mine r ++ extra) = Ok (motion (S k) s r)).
      { intros s. rewrite <- (IH (S k) s n extra); auto; try lia.
        - f_equal; [f_equal; f_equal; lia|f_equal; lia].
        - intros j t' Hj. destruct (Hw (S j) t' Hj) as (p' & q' & X). exists p', q'. replace (S k + j)%nat with (k + S j)%nat by lia. exact X. }
      cbn [mine]. destruct (Bool.eqb (t_left t) b) eqn:Eb.
      - apply Bool.eqb_prop in Eb. rewrite (proj2 Eq Eb). rewrite sub_size_le by lia. cbn [rbind app].
        rewrite swing_sw. cbn [rbind]. rewrite sw_len.
        destruct (Nat.ltb_spec (length ph) (B (2 * k + 1) + (B (2 * k + 2) - B (2 * k + 1)))); [lia|].
        replace (B (2 * k + 1) + (B (2 * k + 2) - B (2 * k + 1)))%nat with (B (2 * k + 2)) by lia. rewrite IHs. reflexivity.
      - assert (Nq : q <> Swing) by (intros C; apply Eq in C; rewrite C, Bool.eqb_reflx in Eb; discriminate).
        assert (G : (if Nat.ltb (length ph) (B (2 * k + 1) + length (repeat (rest_at s0) (B (2 * k + 2) - B (2 * k + 1)))) then UB
          else (do rest <- feet_loop swing ph (map B (seq (S (2 * k + 2)) (2 * length r + 1))) (B (2 * k + 1) + length (repeat (rest_at s0) (B (2 * k + 2) - B (2 * k + 1)))) (s0 :: mine r ++ extra);
            Ok (repeat (rest_at s0) (B (2 * k + 2) - B (2 * k + 1)) ++ rest))) = Ok (repeat (rest_at s0) (B (2 * k + 2) - B (2 * k + 1)) ++ motion (S k) s0 r)).
        { rewrite repeat_length. destruct (Nat.ltb_spec (length ph) (B (2 * k + 1) + (B (2 * k + 2) - B (2 * k + 1)))); [lia|].
          replace (B (2 * k + 1) + (B (2 * k + 2) - B (2 * k + 1)))%nat with (B (2 * k + 2)) by lia. rewrite IHs. reflexivity. }
        destruct q; try congruence; exact G. }
    cbn [feet_loop]. rewrite (nth_seg _ _ _ Sp) by lia.
    replace (S (2 * k + 1)) with (2 * k + 2)%nat by lia.
    set (tail := feet_loop swing ph) in *.
    assert (G : (if Nat.ltb (length ph) (B (2 * k) + length (repeat (rest_at s0) (B (2 * k + 1) - B (2 * k)))) then UB
       else (do rest <- tail (B (2 * k + 2)%nat :: map B (seq (S (2 * k + 2)) (2 * length r + 1))) (B (2 * k) + length (repeat (rest_at s0) (B (2 * k + 1) - B (2 * k))))%nat (s0 :: mine (t :: r) ++ extra);
          Ok (repeat (rest_at s0) (B (2 * k + 1) - B (2 * k)) ++ rest)))
      = Ok (repeat (rest_at s0) (B (2 * k + 1) - B (2 * k)) ++ (if Bool.eqb (t_left t) b then sw (B (2 * k + 2) - B (2 * k + 1)) s0 (t_step t) ++ motion (S k) (t_step t) r
            else repeat (rest_at s0) (B (2 * k + 2) - B (2 * k + 1)) ++ motion (S k) s0 r))).
    { rewrite repeat_length. destruct (Nat.ltb_spec (length ph) (B (2 * k) + (B (2 * k + 1) - B (2 * k)))); [lia|].
      replace (B (2 * k) + (B (2 * k + 1) - B (2 * k)))%nat with (B (2 * k + 1)) by lia. rewrite G2. reflexivity. }
    destruct p; try congruence; exact G.
Qed.

(** ** What the motion is at each instant *)
Definition stands_from (k : nat) (s0 : step) (pl : list tstep) (i : nat) (s : step) : Prop :=
  (exists j t, nth_error pl j = Some t /\ t_left t = b /\ (B (2 * (k + j) + 2) <= i)%nat /\ t_step t = s
     /\ forall j' t', nth_error pl j' = Some t' -> t_left t' = b -> (B (2 * (k + j') + 2) <= i)%nat -> (j' <= j)%nat)
  \/ (s = s0 /\ forall j' t', nth_error pl j' = Some t' -> t_left t' = b -> (i < B (2 * (k + j') + 2))%nat).

Lemma motion_at : forall pl k s0 n i, n = (k + length pl)%nat ->
  (forall i j, (i <= j <= 2 * n + 1)%nat -> (B i <= B j)%nat) -> (B (2 * k) <= i < B (2 * n + 1))%nat ->
  exists s, stands_from k s0 pl i s /\
  ((forall j t, nth_error pl j = Some t -> t_left t = b -> ~ (B (2 * (k + j) + 1) <= i < B (2 * (k + j) + 2))%nat)
     /\ nth_error (motion k s0 pl) (i - B (2 * k)) = Some (rest_at s)
   \/ exists j t, nth_error pl j = Some t /\ t_left t = b /\ (B (2 * (k + j) + 1) <= i < B (2 * (k + j) + 2))%nat
     /\ nth_error (motion k s0 pl) (i - B (2 * k)) = nth_error (sw (B (2 * (k + j) + 2) - B (2 * (k + j) + 1)) s (t_step t)) (i - B (2 * (k + j) + 1))).
Proof.
  induction pl as [|t r IH]; intros k s0 n i En M Hi; cbn [length motion] in *.
  - exists s0. split; [right; split; auto; intros [|j'] t' E; discriminate|]. left. split; [intros [|j] t E; discriminate|].
    apply nth_error_repeat. replace n with k in Hi by lia. lia.
  - pose proof (M (2 * k) (2 * k + 1))%nat as M1. pose proof (M (2 * k + 1) (2 * k + 2))%nat as M2. pose proof (M (2 * k + 2) (2 * n + 1))%nat as M3.
    assert (Later : forall j' t', nth_error r j' = Some t' -> (B (2 * k + 2) <= B (2 * (k + S j') + 1))%nat /\ (B (2 * (k + S j') + 1) <= B (2 * (k + S j') + 2))%nat).
    { intros j' t' Hj. assert (j' < length r)%nat by (apply nth_error_Some; congruence). split; apply M; lia. }
    destruct (Nat.lt_ge_cases i (B (2 * k + 1))) as [C1|C1].
    + exists s0. split.
      * right. split; auto. intros [|j'] t' E F; cbn in E; [replace (k + 0)%nat with k by lia; lia|]. destruct (Later j' t' E). lia.
      * left. split.
        -- intros [|j'] t' E F; cbn in E; [replace (k + 0)%nat with k by lia; lia|]. destruct (Later j' t' E). lia.
        -- rewrite nth_error_app1 by (rewrite repeat_length; lia). apply nth_error_repeat. lia.
    + rewrite nth_error_app2 by (rewrite repeat_length; lia). rewrite repeat_length.
      destruct (Nat.lt_ge_cases i (B (2 * k + 2))) as [C2|C2].
      * exists s0. assert (St : stands_from k s0 (t :: r) i s0).
        { right. split; auto. intros [|j'] t' E F; cbn in E; [replace (k + 0)%nat with k by lia; lia|]. destruct (Later j' t' E). lia. }
        split; auto. destruct (Bool.eqb (t_left t) b) eqn:Eb.
        -- apply Bool.eqb_prop in Eb. right. exists 0%nat, t. replace (k + 0)%nat with k by lia. split; auto. split; auto. split; [lia|].
           rewrite nth_error_app1 by (rewrite sw_len; lia). f_equal. lia.
        -- left. split.
           ++ intros [|j'] t' E F; cbn in E; [injection E as <-; rewrite F, Bool.eqb_reflx in Eb; discriminate|]. destruct (Later j' t' E). lia.
           ++ rewrite nth_error_app1 by (rewrite repeat_length; lia). apply nth_error_repeat. lia.
      * assert (Tail : forall s1, nth_error (motion (S k) s1 r) (i - B (2 * k) - (B (2 * k + 1) - B (2 * k)) - (B (2 * k + 2) - B (2 * k + 1)))
                       = nth_error (motion (S k) s1 r) (i - B (2 * S k))).
        { intros s1. f_equal. replace (2 * S k)%nat with (2 * k + 2)%nat by lia. lia. }
        assert (Hi' : (B (2 * S k) <= i < B (2 * n + 1))%nat) by (replace (2 * S k)%nat with (2 * k + 2)%nat by lia; lia).
        destruct (Bool.eqb (t_left t) b) eqn:Eb.
        -- apply Bool.eqb_prop in Eb. rewrite nth_error_app2 by (rewrite sw_len; lia). rewrite sw_len, Tail.
           destruct (IH (S k) (t_step t) n i) as (s & Hs & Hr); auto; [lia|]. exists s. split.
           ++ destruct Hs as [(j & t' & E1 & E2 & E3 & E4 & E5)|(-> & E5)].
              ** left. exists (S j), t'. replace (k + S j)%nat with (S k + j)%nat by lia. repeat (split; auto).
                 intros [|j'] t'' F1 F2 F3; [lia|]. cbn in F1. replace (k + S j')%nat with (S k + j')%nat in F3 by lia. specialize (E5 _ _ F1 F2 F3). lia.
              ** left. exists 0%nat, t. replace (k + 0)%nat with k by lia. repeat (split; auto).
                 intros [|j'] t'' F1 F2 F3; [lia|]. cbn in F1. replace (k + S j')%nat with (S k + j')%nat in F3 by lia. specialize (E5 _ _ F1 F2). lia.
           ++ destruct Hr as [(Hn & Hr)|(j & t' & E1 & E2 & E3 & E4)].
              ** left. split; auto. intros [|j'] t'' F1 F2; [replace (k + 0)%nat with k by lia; lia|]. cbn in F1. replace (k + S j')%nat with (S k + j')%nat by lia. eauto.
              ** right. exists (S j), t'. replace (k + S j)%nat with (S k + j)%nat by lia. auto.
        -- assert (Nb : t_left t <> b) by (intros F0; rewrite F0, Bool.eqb_reflx in Eb; discriminate).
           rewrite nth_error_app2 by (rewrite repeat_length; lia). rewrite repeat_length, Tail.
           destruct (IH (S k) s0 n i) as (s & Hs & Hr); auto; [lia|]. exists s. split.
           ++ destruct Hs as [(j & t' & E1 & E2 & E3 & E4 & E5)|(-> & E5)].
              ** left. exists (S j), t'. replace (k + S j)%nat with (S k + j)%nat by lia. repeat (split; auto).
                 intros [|j'] t'' F1 F2 F3; [lia|]. cbn in F1. replace (k + S j')%nat with (S k + j')%nat in F3 by lia. specialize (E5 _ _ F1 F2 F3). lia.
              ** right. split; auto. intros [|j'] t'' F1 F2; cbn in F1; [congruence|]. replace (k + S j')%nat with (S k + j')%nat by lia. eauto.
           ++ destruct Hr as [(Hn & Hr)|(j & t' & E1 & E2 & E3 & E4)].
              ** left. split; auto. intros [|j'] t'' F1 F2; cbn in F1; [congruence|]. replace (k + S j')%nat with (S k + j')%nat by lia. eauto.
              ** right. exists (S j), t'. replace (k + S j)%nat with (S k + j)%nat by lia. auto.
Qed.
End Motion.
