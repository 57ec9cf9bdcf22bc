(** Lemmas about the CoM height. *)
From Coq Require Import String Reals Lra Lia ZArith List Bool Sorting.Sorted Sorting.Permutation.
From Verif Require Import Prelude EvalTac Rounding FootPrint GenPhases GenSpec GenProofs GenProofs2 GenProofs3 GenProofs4
  FeetTraj FeetSpec FeetProofs FeetProofs2 FeetProofs3 CoMHeight CoMHeightSpec.
Import ListNotations.
Open Scope R_scope.

Record h_ok (c : hcfg) : Prop := { hk_nom : 0 <= h_nom c \/ h_nom c = -1; hk_top : 0 <= h_nom c -> 0 <= h_nom c + h_delta c }.
Lemma h_history_ok : forall ops, h_ok (h_history ops).
Proof.
  intros ops. unfold h_history. assert (G : forall l c, h_ok c -> h_ok (fold_left (fun c o => fst (h_set c (fst o) (snd o))) l c)).
  { induction l as [|[n d] l IH]; intros c H; cbn; auto. apply IH. unfold h_set.
    destruct (Rltb n 0) eqn:E1; [exact H|]. destruct (Rltb (n + d) 0) eqn:E2; [exact H|]. apply Rltb_false in E1. apply Rltb_false in E2.
    split; cbn; [left; exact E1|intros; exact E2]. }
  apply G. split; cbn; lra.
Qed.

(** The clamped spline is the smooth bump. *)
Definition smooth (x : R) : R := 3 * x ^ 2 - 2 * x ^ 3.
Lemma smooth_range : forall x, 0 <= x <= 1 -> 0 <= smooth x <= 1.
Proof.
  intros x H. unfold smooth. split.
  - replace (3 * x ^ 2 - 2 * x ^ 3) with (x ^ 2 * (3 - 2 * x)) by ring. apply Rmult_le_pos; [apply pow2_ge_0|lra].
  - assert (0 <= (1 - x) ^ 2 * (1 + 2 * x)) by (apply Rmult_le_pos; [apply pow2_ge_0|lra]). nra.
Qed.
Lemma clamped_bump : forall T a m f, 0 < T -> clamped T a m f ->
  (forall t, 0 <= t <= T / 2 -> f t = MkPva (a + (m - a) * smooth (t / (T / 2)))
     ((m - a) * (6 * (t / (T / 2)) * (1 - t / (T / 2))) / (T / 2)) ((m - a) * (6 - 12 * (t / (T / 2))) / (T / 2) ^ 2))
  /\ (forall t, T / 2 <= t <= T -> f t = MkPva (m - (m - a) * smooth ((t - T / 2) / (T / 2)))
     (- (m - a) * (6 * ((t - T / 2) / (T / 2)) * (1 - (t - T / 2) / (T / 2))) / (T / 2)) (- (m - a) * (6 - 12 * ((t - T / 2) / (T / 2))) / (T / 2) ^ 2)).
Proof.
  intros T a m f HT (a0 & a1 & a2 & a3 & b0 & b1 & b2 & b3 & F1 & F2 & H1 & H2 & H3 & H4 & H5 & H6).
  set (L := T / 2) in *. assert (HL : 0 < L) by (unfold L; lra). assert (ET : T = 2 * L) by (unfold L; lra).
  rewrite (F1 0) in H1, H2 by lra. rewrite (F1 L) in H3 by lra. rewrite (F2 T) in H4, H5 by lra.
  unfold cubic in *. cbn [p_p p_v p_a] in *. injection H6 as Q1 Q2 Q3.
  replace (T - L) with L in * by lra.
  assert (A0 : a0 = a) by lra. assert (A1 : a1 = 0) by lra. subst a0 a1.
  (* normalised coefficients *)
  set (A2 := a2 * L ^ 2). set (A3 := a3 * L ^ 3). set (B1 := b1 * L). set (B2 := b2 * L ^ 2). set (B3 := b3 * L ^ 3).
  assert (E1 : A2 + A3 = m - a) by (unfold A2, A3; lra).
  assert (E2 : b0 = m) by lra.
  assert (E3 : B1 = 2 * A2 + 3 * A3). { unfold B1, A2, A3. replace b1 with (2 * a2 * L + 3 * a3 * L ^ 2) by lra. ring. }
  assert (E4 : B2 = A2 + 3 * A3). { unfold B2, A2, A3. replace b2 with (a2 + 3 * a3 * L) by lra. ring. }
  assert (E5 : B1 + B2 + B3 = a - m). { unfold B1, B2, B3. rewrite E2 in H4. lra. }
  assert (E6 : B1 + 2 * B2 + 3 * B3 = 0). { unfold B1, B2, B3. replace (b1 * L + 2 * (b2 * L ^ 2) + 3 * (b3 * L ^ 3)) with ((b1 + 2 * b2 * L + 3 * b3 * L ^ 2) * L) by ring. rewrite H5. ring. }
  assert (X3 : A3 = -2 * (m - a)) by lra. assert (X2 : A2 = 3 * (m - a)) by lra.
  assert (Y1 : B1 = 0) by lra. assert (Y2 : B2 = -3 * (m - a)) by lra. assert (Y3 : B3 = 2 * (m - a)) by lra.
  assert (Z2 : a2 = 3 * (m - a) / L ^ 2) by (rewrite <- X2; unfold A2; field; lra).
  assert (Z3 : a3 = -2 * (m - a) / L ^ 3) by (rewrite <- X3; unfold A3; field; lra).
  assert (W1 : b1 = 0) by (replace b1 with (B1 / L) by (unfold B1; field; lra); rewrite Y1; field; lra).
  assert (W2 : b2 = -3 * (m - a) / L ^ 2) by (rewrite <- Y2; unfold B2; field; lra).
  assert (W3 : b3 = 2 * (m - a) / L ^ 3) by (rewrite <- Y3; unfold B3; field; lra).
  split; intros t Ht.
  - rewrite F1 by lra. rewrite Z2, Z3. unfold smooth. f_equal; field; lra.
  - rewrite F2 by lra. rewrite W1, W2, W3, E2. unfold smooth. f_equal; field; lra.
Qed.

Lemma mix_amid : forall a m x, 0 <= x <= 1 -> amid a m (a + (m - a) * x).
Proof.
  intros a m x H. unfold amid. destruct (Rle_dec a m).
  - rewrite Rmin_left, Rmax_right by lra. split; nra.
  - rewrite Rmin_right, Rmax_left by lra. split; nra.
Qed.
Lemma clamped_amid : forall T a m f t, 0 < T -> clamped T a m f -> 0 <= t <= T -> amid a m (p_p (f t)).
Proof.
  intros T a m f t HT Hf Ht. destruct (clamped_bump T a m f HT Hf) as [F1 F2]. destruct (Rle_dec t (T / 2)).
  - rewrite F1 by lra. cbn [p_p]. apply mix_amid, smooth_range, norm_range; lra.
  - rewrite F2 by lra. cbn [p_p]. replace (m - (m - a) * smooth ((t - T / 2) / (T / 2))) with (a + (m - a) * (1 - smooth ((t - T / 2) / (T / 2)))) by ring.
    assert (B : 0 <= smooth ((t - T / 2) / (T / 2)) <= 1) by (apply smooth_range, norm_range; lra). apply mix_amid. lra.
Qed.

(** The textbook spline meets the contract. *)
Definition textbook (T a m t : R) : pva :=
  if Rleb t (T / 2) then cubic a 0 (3 * (m - a) / (T / 2) ^ 2) (-2 * (m - a) / (T / 2) ^ 3) t
  else cubic m 0 (-3 * (m - a) / (T / 2) ^ 2) (2 * (m - a) / (T / 2) ^ 3) (t - T / 2).
Lemma textbook_clamped : forall T a m, 0 < T -> clamped T a m (textbook T a m).
Proof.
  intros T a m HT. unfold clamped.
  exists a, 0, (3 * (m - a) / (T / 2) ^ 2), (-2 * (m - a) / (T / 2) ^ 3), m, 0, (-3 * (m - a) / (T / 2) ^ 2), (2 * (m - a) / (T / 2) ^ 3).
  assert (K : cubic a 0 (3 * (m - a) / (T / 2) ^ 2) (-2 * (m - a) / (T / 2) ^ 3) (T / 2) = cubic m 0 (-3 * (m - a) / (T / 2) ^ 2) (2 * (m - a) / (T / 2) ^ 3) 0).
  { unfold cubic. f_equal; field; lra. }
  unfold textbook. split; [intros t Ht; rewrite rleb_t by lra; reflexivity|].
  split.
  { intros t Ht. destruct (Req_dec t (T / 2)) as [->|N].
    - rewrite rleb_t by lra. rewrite K. f_equal. ring.
    - rewrite rleb_f by lra. reflexivity. }
  rewrite (rleb_t 0), (rleb_t (T / 2)), (rleb_f T) by lra. cbn [cubic p_p p_v p_a].
  split; [ring|]. split; [ring|]. split; [field; lra|]. split; [field; lra|]. split; [field; lra|]. exact K.
Qed.

(** ** The loop *)
Section HMotion.
Variable spline : R -> R -> R -> R -> pva.
Variable c : hcfg.
Variable dT : R.
Hypothesis HdT : 0 < dT.
Variable ph : list phase.
Variable B : nat -> nat.
Definition arc (n : nat) : list pva := map (fun k => spline (INR n * dT) (h_nom c) (h_nom c + h_delta c) (INR k * dT)) (seq 0 n).
Lemma arc_length : forall n, length (arc n) = n.
Proof. intros. unfold arc. rewrite map_length, seq_length. reflexivity. Qed.
Fixpoint hmotion (k m : nat) : list pva :=
  repeat (still (h_nom c)) (B (2 * k + 1) - B (2 * k)) ++
  match m with O => [] | S m => arc (B (2 * k + 2) - B (2 * k + 1)) ++ hmotion (S k) m end.

Lemma hmotion_length : forall m k, (forall i j, (i <= j <= 2 * (k + m) + 1)%nat -> (B i <= B j)%nat) ->
  length (hmotion k m) = (B (2 * (k + m) + 1) - B (2 * k))%nat.
Proof.
  induction m as [|m IH]; intros k M; cbn [hmotion].
  - rewrite app_nil_r, repeat_length. f_equal; f_equal; lia.
  - pose proof (M (2 * k) (2 * k + 1))%nat. pose proof (M (2 * k + 1) (2 * k + 2))%nat. pose proof (M (2 * k + 2) (2 * (k + S m) + 1))%nat.
    rewrite !app_length, repeat_length, arc_length, IH by (intros; apply M; lia).
    replace (2 * (S k + m) + 1)%nat with (2 * (k + S m) + 1)%nat by lia. replace (2 * S k)%nat with (2 * k + 2)%nat by lia. lia.
Qed.

Definition double_phase (p : phase) : Prop := p = SwitchIn \/ p = SwitchOut.
Definition single_phase (p : phase) : Prop := p = Stance \/ p = Swing.

Lemma hloop : forall m k, (forall i, (i <= 2 * (k + m))%nat -> (B i < B (S i))%nat) -> length ph = B (2 * (k + m) + 1) ->
  (forall j, (k <= j <= k + m)%nat -> exists p, double_phase p /\ seg ph (B (2 * j)) (B (2 * j + 1)) p) ->
  (forall j, (k <= j < k + m)%nat -> exists p, single_phase p /\ seg ph (B (2 * j + 1)) (B (2 * j + 2)) p) ->
  height_loop spline c dT ph (map B (seq (2 * k + 1) (2 * m + 1))) (B (2 * k)) = Ok (hmotion k m).
Proof.
  assert (Mono : forall n, (forall i, (i <= 2 * n)%nat -> (B i < B (S i))%nat) -> forall i j, (i <= j <= 2 * n + 1)%nat -> (B i <= B j)%nat).
  { intros n H i j. induction j as [|j IH]; intros Hij; [replace i with 0%nat by lia; lia|].
    destruct (Nat.eq_dec i (S j)) as [->|]; [lia|]. specialize (H j). lia. }
  induction m as [|m IH]; intros k Hs Hl Hd Hw.
  - replace (2 * 0 + 1)%nat with 1%nat by lia. cbn [seq map height_loop].
    destruct (Hd k ltac:(lia)) as (p & Dp & Sp). pose proof (Hs (2 * k)%nat ltac:(lia)) as H1. replace (S (2 * k)) with (2 * k + 1)%nat in H1 by lia.
    rewrite (nth_seg ph _ _ _ Sp) by lia. cbn [hmotion]. replace (2 * (k + 0) + 1)%nat with (2 * k + 1)%nat in Hl by lia.
    assert (G : (if Nat.ltb (length ph) (B (2 * k) + length (repeat (still (h_nom c)) (B (2 * k + 1) - B (2 * k)))) then UB
       else (do rest <- Ok []; Ok (repeat (still (h_nom c)) (B (2 * k + 1) - B (2 * k)) ++ rest))) = Ok (repeat (still (h_nom c)) (B (2 * k + 1) - B (2 * k)) ++ [])).
    { rewrite repeat_length. destruct (Nat.ltb_spec (length ph) (B (2 * k) + (B (2 * k + 1) - B (2 * k)))); [lia|]. reflexivity. }
    destruct Dp as [->| ->]; exact G.
  - replace (2 * S m + 1)%nat with (S (S (2 * m + 1))) by lia. cbn [seq map].
    destruct (Hd k ltac:(lia)) as (p & Dp & Sp). destruct (Hw k ltac:(lia)) as (q & Dq & Sq).
    pose proof (Hs (2 * k)%nat ltac:(lia)) as H1. replace (S (2 * k)) with (2 * k + 1)%nat in * by lia.
    pose proof (Hs (2 * k + 1)%nat ltac:(lia)) as H2. replace (S (2 * k + 1)) with (2 * k + 2)%nat in * by lia.
    assert (H3 : (B (2 * k + 2) <= B (2 * (k + S m) + 1))%nat) by (apply Mono with (k + S m)%nat; auto; lia).
    assert (IHs : height_loop spline c dT ph (map B (seq (S (2 * k + 2)) (2 * m + 1))) (B (2 * k + 2)) = Ok (hmotion (S k) m)).
    { rewrite <- (IH (S k)).
      - f_equal; [f_equal; f_equal; lia|f_equal; lia].
      - intros i Hi. apply Hs. lia.
      - rewrite Hl. f_equal. lia.
      - intros j Hj. apply Hd. lia.
      - intros j Hj. apply Hw. lia. }
    assert (G2 : height_loop spline c dT ph (B (2 * k + 2) :: map B (seq (S (2 * k + 2)) (2 * m + 1))) (B (2 * k + 1))
      = Ok (arc (B (2 * k + 2) - B (2 * k + 1)) ++ hmotion (S k) m)).
    { cbn [height_loop]. rewrite (nth_seg ph _ _ _ Sq) by lia. rewrite sub_size_le by lia. cbn [rbind]. unfold bump. cbv zeta.
      rewrite reqb_f by (assert (0 < INR (B (2 * k + 2) - B (2 * k + 1)) * dT) by (apply Rmult_lt_0_compat; [apply lt_0_INR; lia|auto]); lra).
      cbn [rbind]. fold (arc (B (2 * k + 2) - B (2 * k + 1))). rewrite arc_length.
      destruct (Nat.ltb_spec (length ph) (B (2 * k + 1) + (B (2 * k + 2) - B (2 * k + 1)))); [lia|].
      replace (B (2 * k + 1) + (B (2 * k + 2) - B (2 * k + 1)))%nat with (B (2 * k + 2)) by lia. rewrite IHs. destruct Dq as [->| ->]; reflexivity. }
    cbn [height_loop]. rewrite (nth_seg ph _ _ _ Sp) by lia. replace (S (2 * k + 1)) with (2 * k + 2)%nat by lia.
    set (loop := height_loop spline c dT ph) in *. cbn [hmotion].
    assert (G : (if Nat.ltb (length ph) (B (2 * k) + length (repeat (still (h_nom c)) (B (2 * k + 1) - B (2 * k)))) then UB
       else (do rest <- loop (B (2 * k + 2)%nat :: map B (seq (S (2 * k + 2)) (2 * m + 1))) (B (2 * k) + length (repeat (still (h_nom c)) (B (2 * k + 1) - B (2 * k))))%nat;
         Ok (repeat (still (h_nom c)) (B (2 * k + 1) - B (2 * k)) ++ rest)))
       = Ok (repeat (still (h_nom c)) (B (2 * k + 1) - B (2 * k)) ++ arc (B (2 * k + 2) - B (2 * k + 1)) ++ hmotion (S k) m)).
    { rewrite repeat_length. destruct (Nat.ltb_spec (length ph) (B (2 * k) + (B (2 * k + 1) - B (2 * k)))); [lia|].
      replace (B (2 * k) + (B (2 * k + 1) - B (2 * k)))%nat with (B (2 * k + 1)) by lia. rewrite G2. reflexivity. }
    destruct Dp as [->| ->]; exact G.
Qed.

Lemma hmotion_at : forall m k i, (forall i j, (i <= j <= 2 * (k + m) + 1)%nat -> (B i <= B j)%nat) ->
  (B (2 * k) <= i < B (2 * (k + m) + 1))%nat ->
  (exists j, (k <= j <= k + m)%nat /\ (B (2 * j) <= i < B (2 * j + 1))%nat /\ nth_error (hmotion k m) (i - B (2 * k)) = Some (still (h_nom c)))
  \/ (exists j, (k <= j < k + m)%nat /\ (B (2 * j + 1) <= i < B (2 * j + 2))%nat
       /\ nth_error (hmotion k m) (i - B (2 * k)) = Some (spline (INR (B (2 * j + 2) - B (2 * j + 1)) * dT) (h_nom c) (h_nom c + h_delta c) (INR (i - B (2 * j + 1)) * dT))).
Proof.
  induction m as [|m IH]; intros k i M Hi; cbn [hmotion].
  - left. exists k. replace (2 * (k + 0) + 1)%nat with (2 * k + 1)%nat in Hi by lia. split; [lia|]. split; [lia|].
    rewrite app_nil_r. apply nth_error_repeat. lia.
  - pose proof (M (2 * k) (2 * k + 1))%nat. pose proof (M (2 * k + 1) (2 * k + 2))%nat. pose proof (M (2 * k + 2) (2 * (k + S m) + 1))%nat.
    destruct (Nat.lt_ge_cases i (B (2 * k + 1))) as [C1|C1].
    + left. exists k. split; [lia|]. split; [lia|]. rewrite nth_error_app1 by (rewrite repeat_length; lia). apply nth_error_repeat. lia.
    + rewrite nth_error_app2 by (rewrite repeat_length; lia). rewrite repeat_length.
      destruct (Nat.lt_ge_cases i (B (2 * k + 2))) as [C2|C2].
      * right. exists k. split; [lia|]. split; [lia|]. rewrite nth_error_app1 by (rewrite arc_length; lia).
        replace (i - B (2 * k) - (B (2 * k + 1) - B (2 * k)))%nat with (i - B (2 * k + 1))%nat by lia.
        unfold arc. set (n := (B (2 * k + 2) - B (2 * k + 1))%nat). rewrite (map_nth_error _ _ _ (d := (i - B (2 * k + 1))%nat)); [reflexivity|].
        rewrite nth_error_nth' with (d := 0%nat) by (rewrite seq_length; unfold n; lia). f_equal. rewrite seq_nth; unfold n; lia.
      * rewrite nth_error_app2 by (rewrite arc_length; lia). rewrite arc_length.
        replace (i - B (2 * k) - (B (2 * k + 1) - B (2 * k)) - (B (2 * k + 2) - B (2 * k + 1)))%nat with (i - B (2 * S k))%nat
          by (replace (2 * S k)%nat with (2 * k + 2)%nat by lia; lia).
        destruct (IH (S k) i) as [(j & J1 & J2 & J3)|(j & J1 & J2 & J3)].
        -- intros; apply M; lia.
        -- replace (2 * S k)%nat with (2 * k + 2)%nat by lia. replace (2 * (S k + m) + 1)%nat with (2 * (k + S m) + 1)%nat by lia. lia.
        -- left. exists j. split; [lia|]. auto.
        -- right. exists j. split; [lia|]. auto.
Qed.
End HMotion.
