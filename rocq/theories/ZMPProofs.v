(** Lemmas about the ZMP trajectories: the phase loop, the weights, the local ZMP. *)
From Coq Require Import String Reals Lra Lia ZArith List Bool Sorting.Sorted Sorting.Permutation.
From Flocq Require Import Core.Raux.
From Verif Require Import Prelude EvalTac Rounding FootPrint GenPhases GenSpec GenProofs GenProofs2 FeetTraj FeetSpec FeetProofs
  CoMHeightSpec CoMHeightProofs ZMP ZMPSpec.
Import ListNotations.
Open Scope R_scope.

(** ** The phase loop *)
Section LoopSpec.
Variable A : Type.
Variable piece : bool -> bool -> phase -> nat -> nat -> res (list A).
Variable ph : list phase.
Variable B : nat -> nat.
Variable n : nat.
Variable o : nat -> list A.
Hypothesis Hmono : forall j, (j < n)%nat -> (B j < B (S j))%nat.
Hypothesis Hlen : length ph = B n.
Hypothesis Ho : forall j, (j < n)%nat -> length (o j) = (B (S j) - B j)%nat.

Lemma bounds_mono : forall j i, (i <= j <= n)%nat -> (B i <= B j)%nat.
Proof.
  induction j as [|j IH]; intros i Hi; [replace i with 0%nat by lia; lia|].
  destruct (Nat.eq_dec i (S j)) as [->|N]; [lia|]. specialize (IH i ltac:(lia)). specialize (Hmono j ltac:(lia)). lia.
Qed.

Lemma pieces_length : forall m k, (k + m <= n)%nat -> length (flat_map o (seq k m)) = (B (k + m) - B k)%nat.
Proof.
  induction m as [|m IH]; intros k Hk; cbn [seq flat_map]; [replace (k + 0)%nat with k by lia; cbn; lia|].
  rewrite app_length, Ho, IH by lia. replace (k + S m)%nat with (S k + m)%nat by lia.
  pose proof (bounds_mono (S k) k ltac:(lia)). pose proof (bounds_mono (S k + m) (S k) ltac:(lia)). lia.
Qed.

Lemma pieces_nth : forall m k j i, (k + m <= n)%nat -> (k <= j < k + m)%nat -> (B j <= i < B (S j))%nat ->
  nth_error (flat_map o (seq k m)) (i - B k) = nth_error (o j) (i - B j).
Proof.
  induction m as [|m IH]; intros k j i Hk Hj Hi; [lia|]. cbn [seq flat_map].
  destruct (Nat.eq_dec j k) as [->|N].
  - rewrite nth_error_app1 by (rewrite Ho by lia; lia). reflexivity.
  - pose proof (bounds_mono j (S k) ltac:(lia)). pose proof (bounds_mono (S k) k ltac:(lia)).
    rewrite nth_error_app2 by (rewrite Ho by lia; lia). rewrite Ho by lia.
    replace (i - B k - (B (S k) - B k))%nat with (i - B (S k))%nat by lia. apply IH; lia.
Qed.

Hypothesis Hpiece : forall j, (j < n)%nat -> exists p, nth_error ph (B j) = Some p
  /\ piece (Nat.eqb j 0) (Nat.eqb (S j) n) p (B j) (B (S j)) = Ok (o j).

Lemma phase_loop_pieces : forall m k, (k + m = n)%nat ->
  phase_loop piece ph (map B (seq (S k) m)) (Nat.eqb k 0) (B k) = Ok (flat_map o (seq k m)).
Proof.
  induction m as [|m IH]; intros k Hk; cbn [seq map phase_loop flat_map]; [reflexivity|].
  destruct (Hpiece k ltac:(lia)) as (p & E1 & E2). rewrite E1.
  replace (match map B (seq (S (S k)) m) with [] => true | _ => false end) with (Nat.eqb (S k) n).
  2:{ destruct m; cbn [seq map]; [apply Nat.eqb_eq; lia|apply Nat.eqb_neq; lia]. }
  rewrite E2. cbn [rbind]. rewrite Ho by lia.
  pose proof (bounds_mono (S k) k ltac:(lia)). pose proof (bounds_mono n (S k) ltac:(lia)).
  replace (B k + (B (S k) - B k))%nat with (B (S k)) by lia.
  destruct (Nat.ltb_spec (length ph) (B (S k))); [lia|].
  pose proof (IH (S k) ltac:(lia)) as E. cbn [Nat.eqb] in E. rewrite E. reflexivity.
Qed.

End LoopSpec.

(** What a successful run consists of, whatever the boundaries. *)
Section LoopInv.
Variable A : Type.
Variable piece : bool -> bool -> phase -> nat -> nat -> res (list A).
Variable ph : list phase.
Variable B : nat -> nat.
Variable n : nat.
Hypothesis Hmono : forall i j, (i <= j <= n)%nat -> (B i <= B j)%nat.
Hypothesis Hlen : forall j p o, (j < n)%nat -> nth_error ph (B j) = Some p ->
  piece (Nat.eqb j 0) (Nat.eqb (S j) n) p (B j) (B (S j)) = Ok o -> length o = (B (S j) - B j)%nat.

Lemma phase_loop_inv : forall m k out, (k + m = n)%nat ->
  phase_loop piece ph (map B (seq (S k) m)) (Nat.eqb k 0) (B k) = Ok out ->
  length out = (B n - B k)%nat
  /\ forall j, (k <= j < n)%nat -> exists p o, nth_error ph (B j) = Some p
     /\ piece (Nat.eqb j 0) (Nat.eqb (S j) n) p (B j) (B (S j)) = Ok o
     /\ forall i, (B j <= i < B (S j))%nat -> nth_error out (i - B k) = nth_error o (i - B j).
Proof.
  induction m as [|m IH]; intros k out Hk H; cbn [seq map phase_loop] in H.
  { injection H as <-. replace k with n by lia. split; [cbn; lia|]. intros; lia. }
  destruct (nth_error ph (B k)) as [p|] eqn:Ep; [|discriminate].
  replace (match map B (seq (S (S k)) m) with [] => true | _ => false end) with (Nat.eqb (S k) n) in H.
  2:{ destruct m; cbn [seq map]; [apply Nat.eqb_eq; lia|apply Nat.eqb_neq; lia]. }
  apply rbind_ok in H. destruct H as (o & Ho & H). pose proof (Hlen k p o ltac:(lia) Ep Ho) as Lo.
  pose proof (Hmono k (S k) ltac:(lia)) as M1. pose proof (Hmono (S k) n ltac:(lia)) as M2.
  rewrite Lo in H. replace (B k + (B (S k) - B k))%nat with (B (S k)) in H by lia.
  destruct (Nat.ltb_spec (length ph) (B (S k))); [discriminate|]. apply rbind_ok in H. destruct H as (rest & Hr & H). injection H as <-.
  destruct (IH (S k) rest ltac:(lia) Hr) as [L R]. split; [rewrite app_length; lia|]. intros j Hj. destruct (Nat.eq_dec j k) as [->|N].
  - exists p, o. split; auto. split; auto. intros i Hi. rewrite nth_error_app1 by lia. reflexivity.
  - destruct (R j ltac:(lia)) as (p' & o' & R1 & R2 & R3). exists p', o'. split; auto. split; auto. intros i Hi.
    pose proof (Hmono (S k) j ltac:(lia)). rewrite nth_error_app2 by lia. rewrite Lo. replace (i - B k - (B (S k) - B k))%nat with (i - B (S k))%nat by lia.
    apply R3. auto.
Qed.
End LoopInv.

(** ** Splines *)
Lemma hermite_form : forall T x0 x1 f, 0 < T -> hermite T x0 0 x1 f -> forall t, 0 <= t <= T ->
  f t = MkPva (x0 + (x1 - x0) * smooth (t / T)) ((x1 - x0) * (6 * (t / T) * (1 - t / T)) / T) ((x1 - x0) * (6 - 12 * (t / T)) / T ^ 2).
Proof.
  intros T x0 x1 f HT (c0 & c1 & c2 & c3 & F & H1 & H2 & H3 & H4) t Ht.
  rewrite (F 0) in H1, H2 by lra. rewrite (F T) in H3, H4 by lra. rewrite (F t) by lra. unfold cubic in *. cbn [p_p p_v p_a] in *.
  assert (C0 : c0 = x0) by lra. assert (C1 : c1 = 0) by lra. subst c0 c1.
  set (A2 := c2 * T ^ 2). set (A3 := c3 * T ^ 3).
  assert (E1 : A2 + A3 = x1 - x0) by (unfold A2, A3; lra).
  assert (E2 : 2 * A2 + 3 * A3 = 0). { unfold A2, A3. replace (2 * (c2 * T ^ 2) + 3 * (c3 * T ^ 3)) with ((0 + 2 * c2 * T + 3 * c3 * T ^ 2) * T) by ring. rewrite H4. ring. }
  assert (Z3 : c3 = -2 * (x1 - x0) / T ^ 3). { replace c3 with (A3 / T ^ 3) by (unfold A3; field; lra). replace A3 with (-2 * (x1 - x0)) by lra. reflexivity. }
  assert (Z2 : c2 = 3 * (x1 - x0) / T ^ 2). { replace c2 with (A2 / T ^ 2) by (unfold A2; field; lra). replace A2 with (3 * (x1 - x0)) by lra. reflexivity. }
  rewrite Z2, Z3. unfold smooth. f_equal; field; lra.
Qed.
Lemma hermite_amid : forall T x0 x1 f t, 0 < T -> hermite T x0 0 x1 f -> 0 <= t <= T -> amid x0 x1 (p_p (f t)).
Proof.
  intros T x0 x1 f t HT Hf Ht. rewrite (hermite_form T x0 x1 f HT Hf t Ht). cbn [p_p]. apply mix_amid, smooth_range, norm_range; lra.
Qed.
Lemma amid_range : forall a b x lo hi, amid a b x -> lo <= a <= hi -> lo <= b <= hi -> lo <= x <= hi.
Proof.
  intros a b x lo hi [H1 H2] Ha Hb. split.
  - eapply Rle_trans; [|exact H1]. apply Rmin_glb; lra.
  - eapply Rle_trans; [exact H2|]. apply Rmax_lub; lra.
Qed.

(** The textbook spline meets the contract. *)
Definition tbs (T x0 v0 a0 x1 t : R) : pva :=
  cubic x0 v0 (3 * (x1 - x0) / T ^ 2 - 2 * v0 / T) (- 2 * (x1 - x0) / T ^ 3 + v0 / T ^ 2) t.
Lemma tbs_contract : spline_contract tbs.
Proof.
  intros T x0 v0 a0 x1 HT. do 4 eexists. split; [intros t Ht; reflexivity|]. unfold tbs, cubic. cbn [p_p p_v].
  split; [ring|]. split; [ring|]. split; field; lra.
Qed.

(** ** Weights *)
Definition target (last : bool) (p : phase) : R := if last then 1 / 2 else match p with SwitchIn => 1 | _ => 0 end.
Definition source (w0 : pva) (first : bool) (p : phase) : pva := if first then w0 else match p with SwitchIn => still 0 | _ => still 1 end.

Lemma collect_ok : forall (A B : Type) (f : A -> res B) (g : A -> B) l, (forall x, In x l -> f x = Ok (g x)) -> collect (map f l) = Ok (map g l).
Proof.
  induction l as [|x l IH]; intros H; cbn; [reflexivity|]. rewrite H by (left; auto). cbn [rbind]. rewrite IH by (intros; apply H; right; auto). reflexivity.
Qed.
Lemma map_const : forall (A B : Type) (f : A -> B) (c : B) l, (forall x, In x l -> f x = c) -> map f l = repeat c (length l).
Proof. induction l as [|x l IH]; intros H; cbn; [reflexivity|]. f_equal; [apply H; left; auto|apply IH; intros; apply H; right; auto]. Qed.

Lemma seq_split : forall a n m, (m <= n)%nat -> seq a n = seq a m ++ seq (a + m) (n - m).
Proof. intros a n m H. rewrite <- seq_app. f_equal. lia. Qed.
Lemma seq_from : forall a n, seq a n = map (Nat.add a) (seq 0 n).
Proof.
  induction a as [|a IH]; intros n; [symmetry; apply map_id|]. rewrite <- seq_shift, IH, map_map. reflexivity.
Qed.
Lemma seq_shift_map : forall (A : Type) (f : nat -> A) a n, map f (seq a n) = map (fun k => f (a + k)%nat) (seq 0 n).
Proof. intros A f a n. rewrite seq_from, map_map. reflexivity. Qed.

Lemma collect_length : forall (A : Type) (l : list (res A)) o, collect l = Ok o -> length o = length l.
Proof.
  induction l as [|r l IH]; intros o H; cbn in H; [injection H as <-; reflexivity|].
  apply rbind_ok in H. destruct H as (a & _ & H). apply rbind_ok in H. destruct H as (t & Ht & H). injection H as <-. cbn. f_equal. auto.
Qed.

Section Weights.
Variable spl : R -> R -> R -> R -> R -> R -> pva.
Variable Z : ztimes.
Variable dT : R.
Hypothesis HdT : 0 < dT.
Hypothesis Hend : 0 < z_end Z.
Hypothesis Hnom : 0 < z_nom Z.
Variable ph : list phase.
Definition n1 : nat := nround (z_end Z / dT).
Definition n2 : nat := nround (z_nom Z / dT).
Definition spv (T : R) (x0 : pva) (x1 : R) (k : nat) : pva := spl T (p_p x0) (p_v x0) (p_a x0) x1 (INR k * dT).

(** The weight at the [k]-th of [n] instants of a phase. *)
Definition wval (w0 : pva) (first last : bool) (p : phase) (n k : nat) : pva :=
  match p with
  | Stance => still 1
  | Swing => still 0
  | _ =>
      if pauses Z dT n then
        if Nat.ltb k n1 then spv (z_end Z) (source w0 first p) (1 / 2) k
        else if Nat.ltb k (n - n2) then still (1 / 2)
        else spv (INR n2 * dT) (still (1 / 2)) (target last p) (k - (n - n2))
      else spv (INR n * dT) (source w0 first p) (target last p) k
  end.

Lemma pause_room : forall n, pauses Z dT n = true -> (n1 + n2 <= n)%nat /\ z_end Z < INR n * dT.
Proof.
  intros n H. unfold pauses in H. apply andb_prop in H. destruct H as [H1 H2]. apply Rltb_true in H2.
  assert (H3 : z_end Z + z_nom Z < INR n * dT) by (eapply Rle_lt_trans; [apply Rmax_r|exact H2]).
  split; [|lra].
  pose proof (nround_bounds (z_end Z / dT) ltac:(apply Rlt_le, Rdiv_lt_0_compat; auto)) as B1.
  pose proof (nround_bounds (z_nom Z / dT) ltac:(apply Rlt_le, Rdiv_lt_0_compat; auto)) as B2. fold n1 in B1. fold n2 in B2.
  assert (H4 : z_end Z / dT + z_nom Z / dT < INR n).
  { replace (z_end Z / dT + z_nom Z / dT) with ((z_end Z + z_nom Z) / dT) by (field; lra).
    apply Rmult_lt_reg_r with dT; [auto|]. replace ((z_end Z + z_nom Z) / dT * dT) with (z_end Z + z_nom Z) by (field; lra). lra. }
  assert (H5 : INR (n1 + n2) < INR (S n)) by (rewrite plus_INR, S_INR; lra). apply INR_lt in H5. lia.
Qed.

Lemma spline_pts_ok : forall T x0 x1 n, 0 < T -> spline_pts spl dT T x0 x1 n = Ok (map (spv T x0 x1) (seq 0 n)).
Proof. intros. unfold spline_pts. rewrite reqb_f by lra. reflexivity. Qed.

Lemma weight_piece_ok : forall w0 first last p a b, (a < b)%nat -> seg ph a b p -> (pauses Z dT (b - a) = true -> (1 <= n2)%nat) ->
  weight_piece spl Z dT ph w0 first last p a b = Ok (map (wval w0 first last p (b - a)) (seq 0 (b - a))).
Proof.
  intros w0 first last p a b Hab Hs Hn2.
  assert (K : forall (q : phase), p = q -> (q = Stance \/ q = Swing) -> weight_piece spl Z dT ph w0 first last p a b = Ok (map (wval w0 first last p (b - a)) (seq 0 (b - a)))).
  { intros q E Q. subst q. set (v := match p with Stance => still 1 | _ => still 0 end).
    assert (E1 : weight_piece spl Z dT ph w0 first last p a b = Ok (repeat v (b - a))).
    { destruct Q as [-> | ->]; cbn [weight_piece]; rewrite (collect_ok _ _ _ (fun _ => v));
        try (intros i Hi; apply in_seq in Hi; rewrite (Hs i) by lia; reflexivity); rewrite (map_const _ _ _ v), seq_length by auto; reflexivity. }
    rewrite E1. f_equal. rewrite (map_const _ _ _ v), seq_length; [reflexivity|]. intros; unfold v; destruct Q as [-> | ->]; reflexivity. }
  assert (S0 : p = SwitchIn \/ p = SwitchOut -> weight_piece spl Z dT ph w0 first last p a b = Ok (map (wval w0 first last p (b - a)) (seq 0 (b - a)))).
  { intros Q. set (n := (b - a)%nat) in *.
    assert (E : weight_piece spl Z dT ph w0 first last p a b =
      (do (pre, x0') <- (if pauses Z dT n then
          do out1 <- spline_pts spl dT (z_end Z) (source w0 first p) (1 / 2) (nround (z_end Z / dT));
          Ok (out1 ++ repeat (still (1 / 2)) (n - nround (z_nom Z / dT) - length out1), still (1 / 2))
        else Ok ([], source w0 first p));
      do x1 <- (if last then Ok (1 / 2) else match nth_error ph (a + length pre) with
                                            | None => UB | Some SwitchIn => Ok 1 | Some _ => Ok 0 end);
      do m <- sub_size n (length pre);
      do out <- spline_pts spl dT (INR m * dT) x0' x1 m;
      Ok (pre ++ out))).
    { destruct Q as [-> | ->]; unfold weight_piece, source; rewrite sub_size_le by lia; reflexivity. }
    rewrite E. clear E.
    assert (T1 : forall k, (k < n)%nat -> (if last then Ok (1 / 2) else match nth_error ph (a + k) with
                                            | None => UB | Some SwitchIn => Ok 1 | Some _ => Ok 0 end) = Ok (target last p)).
    { intros k Hk. unfold target. destruct last; [reflexivity|]. rewrite (Hs (a + k)%nat) by (unfold n in Hk; lia). destruct Q as [-> | ->]; reflexivity. }
    assert (W : wval w0 first last p n = fun k => if pauses Z dT n then
        if Nat.ltb k n1 then spv (z_end Z) (source w0 first p) (1 / 2) k
        else if Nat.ltb k (n - n2) then still (1 / 2)
        else spv (INR n2 * dT) (still (1 / 2)) (target last p) (k - (n - n2))
      else spv (INR n * dT) (source w0 first p) (target last p) k) by (destruct Q as [-> | ->]; reflexivity).
    rewrite W. clear W. destruct (pauses Z dT n) eqn:Ep.
    - destruct (pause_room n Ep) as (R1 & _). pose proof (Hn2 eq_refl) as R2. fold n1 n2. rewrite spline_pts_ok by auto. cbn [rbind].
      set (pre := map _ (seq 0 n1) ++ _). assert (L : length pre = (n - n2)%nat).
      { unfold pre. rewrite app_length, repeat_length, !map_length, seq_length. lia. }
      rewrite L, T1 by lia. cbn [rbind]. rewrite sub_size_le by lia. cbn [rbind]. replace (n - (n - n2))%nat with n2 by lia.
      rewrite spline_pts_ok by (apply Rmult_lt_0_compat; [apply lt_0_INR; lia|auto]). cbn [rbind]. f_equal.
      rewrite (seq_split 0 n n1) by lia. rewrite (seq_split (0 + n1) (n - n1) (n - n2 - n1)) by lia. rewrite !map_app, app_assoc. unfold pre.
      rewrite map_length, seq_length. f_equal; [f_equal|].
      + apply map_ext_in. intros k Hk. apply in_seq in Hk. destruct (Nat.ltb_spec k n1); [reflexivity|lia].
      + rewrite (map_const _ _ _ (still (1 / 2))), seq_length; [f_equal; lia|]. intros k Hk. apply in_seq in Hk.
        destruct (Nat.ltb_spec k n1); [lia|]. destruct (Nat.ltb_spec k (n - n2)); [reflexivity|lia].
      + replace (0 + n1 + (n - n2 - n1))%nat with (n - n2)%nat by lia. replace (n - n1 - (n - n2 - n1))%nat with n2 by lia.
        rewrite (seq_shift_map _ _ (n - n2)). apply map_ext. intros k.
        destruct (Nat.ltb_spec (n - n2 + k) n1); [lia|]. destruct (Nat.ltb_spec (n - n2 + k) (n - n2)); [lia|]. f_equal; lia.
    - cbn [rbind length]. rewrite T1 by lia. cbn [rbind]. rewrite sub_size_le by lia. cbn [rbind]. rewrite Nat.sub_0_r.
      rewrite spline_pts_ok by (apply Rmult_lt_0_compat; [apply lt_0_INR; lia|auto]). reflexivity. }
  destruct p; [apply (K Stance); auto|apply S0; auto|apply S0; auto|apply (K Swing); auto].
Qed.

(** A phase that is dealt with successfully. *)
Lemma weight_piece_inv : forall w0 first last p a b o, (a <= b)%nat -> (p = SwitchIn \/ p = SwitchOut -> seg ph a b p) ->
  weight_piece spl Z dT ph w0 first last p a b = Ok o ->
  length o = (b - a)%nat /\ ((a < b)%nat -> seg ph a b p -> (pauses Z dT (b - a) = true -> (1 <= n2)%nat)
    \/ p = Stance \/ p = Swing).
Proof.
  intros w0 first last p a b o Hab Hs H.
  assert (S0 : p = SwitchIn \/ p = SwitchOut -> length o = (b - a)%nat /\ (pauses Z dT (b - a) = true -> (1 <= n2)%nat)).
  { intros Q. set (n := (b - a)%nat) in *.
    assert (E : (do (pre, x0') <- (if pauses Z dT n then
          do out1 <- spline_pts spl dT (z_end Z) (source w0 first p) (1 / 2) (nround (z_end Z / dT));
          Ok (out1 ++ repeat (still (1 / 2)) (n - nround (z_nom Z / dT) - length out1), still (1 / 2))
        else Ok ([], source w0 first p));
      do x1 <- (if last then Ok (1 / 2) else match nth_error ph (a + length pre) with
                                            | None => UB | Some SwitchIn => Ok 1 | Some _ => Ok 0 end);
      do m <- sub_size n (length pre);
      do out <- spline_pts spl dT (INR m * dT) x0' x1 m;
      Ok (pre ++ out)) = Ok o).
    { rewrite <- H. destruct Q as [-> | ->]; unfold weight_piece, source; rewrite sub_size_le by lia; reflexivity. }
    clear H. apply rbind_ok in E. destruct E as ([pre x0'] & E1 & E). apply rbind_ok in E. destruct E as (x1 & _ & E).
    apply rbind_ok in E. destruct E as (m & Em & E). apply rbind_ok in E. destruct E as (out & Eo & E). injection E as <-.
    unfold sub_size in Em. destruct (Nat.leb_spec (length pre) n) as [Hl|]; [|discriminate]. injection Em as <-.
    unfold spline_pts in Eo. destruct (Reqb _ 0) eqn:E0; [discriminate|]. injection Eo as <-. apply Reqb_false in E0.
    rewrite app_length, map_length, seq_length. split; [lia|]. intros Ep. rewrite Ep in E1. destruct (pause_room n Ep) as (R1 & _).
    rewrite spline_pts_ok in E1 by auto. cbn [rbind] in E1. injection E1 as <- _. destruct (Nat.eq_dec n2 0) as [Z2|]; [|lia]. exfalso. apply E0.
    rewrite app_length, repeat_length, !map_length, seq_length. fold n1 n2. rewrite Z2. replace (n - _)%nat with 0%nat by lia. cbn [INR]. ring. }
  destruct p.
  - cbn [weight_piece] in H. split; [|auto]. apply collect_length in H. rewrite map_length, seq_length in H. exact H.
  - destruct (S0 (or_introl eq_refl)). split; auto.
  - destruct (S0 (or_intror eq_refl)). split; auto.
  - cbn [weight_piece] in H. split; [|auto]. apply collect_length in H. rewrite map_length, seq_length in H. exact H.
Qed.
Lemma weight_piece_val : forall w0 first last p a b o, (a < b)%nat -> seg ph a b p ->
  weight_piece spl Z dT ph w0 first last p a b = Ok o -> (pauses Z dT (b - a) = true -> p = SwitchIn \/ p = SwitchOut -> (1 <= n2)%nat)
  /\ o = map (wval w0 first last p (b - a)) (seq 0 (b - a)).
Proof.
  intros w0 first last p a b o Hab Hs H.
  destruct (weight_piece_inv w0 first last p a b o ltac:(lia) ltac:(auto) H) as [L K]. specialize (K Hab Hs).
  assert (G : p = Stance \/ p = Swing -> o = map (wval w0 first last p (b - a)) (seq 0 (b - a))).
  { intros Q. set (v := match p with Stance => still 1 | _ => still 0 end).
    assert (E1 : weight_piece spl Z dT ph w0 first last p a b = Ok (repeat v (b - a))).
    { destruct Q as [-> | ->]; cbn [weight_piece]; rewrite (collect_ok _ _ _ (fun _ => v));
        try (intros i Hi; apply in_seq in Hi; rewrite (Hs i) by lia; reflexivity); rewrite (map_const _ _ _ v), seq_length by auto; reflexivity. }
    rewrite E1 in H. injection H as <-. rewrite (map_const _ _ _ v), seq_length; [reflexivity|]. intros; unfold v; destruct Q as [-> | ->]; reflexivity. }
  destruct K as [K|K].
  - split; [auto|]. pose proof (weight_piece_ok w0 first last p a b Hab Hs K) as E. rewrite E in H. injection H as <-. reflexivity.
  - split; [intros _ [C|C]; destruct K; congruence|auto].
Qed.

Hypothesis Hspl : spline_contract spl.

Lemma spv_range : forall T x0 x1 k lo hi, 0 < T -> p_v x0 = 0 -> lo <= p_p x0 <= hi -> lo <= x1 <= hi -> INR k * dT <= T ->
  lo <= p_p (spv T x0 x1 k) <= hi.
Proof.
  intros T x0 x1 k lo hi HT Hv H0 H1 Hk. unfold spv. rewrite Hv. eapply amid_range; [|exact H0|exact H1].
  eapply hermite_amid; [exact HT|apply Hspl; auto|]. split; [apply Rmult_le_pos; [apply pos_INR|lra]|auto].
Qed.

Lemma k_time : forall k n, (k <= n)%nat -> INR k * dT <= INR n * dT.
Proof. intros. apply Rmult_le_compat_r; [lra|]. apply le_INR. auto. Qed.
Lemma n_time : forall n, (0 < n)%nat -> 0 < INR n * dT.
Proof. intros. apply Rmult_lt_0_compat; [apply lt_0_INR; auto|auto]. Qed.
Lemma n1_time : forall k, (k < n1)%nat -> INR k * dT <= z_end Z.
Proof.
  intros k Hk. pose proof (nround_bounds (z_end Z / dT) ltac:(apply Rlt_le, Rdiv_lt_0_compat; auto)) as B1. fold n1 in B1.
  assert (INR k + 1 <= INR n1) by (rewrite <- S_INR; apply le_INR; lia).
  apply Rmult_le_reg_r with (/ dT); [apply Rinv_0_lt_compat; auto|]. replace (INR k * dT * / dT) with (INR k) by (field; lra).
  unfold Rdiv in B1. lra.
Qed.

Lemma wval_range : forall w0 first last p n k, (k < n)%nat -> (pauses Z dT n = true -> p = SwitchIn \/ p = SwitchOut -> (1 <= n2)%nat) -> p_v w0 = 0 -> 0 <= p_p w0 <= 1 ->
  0 <= p_p (wval w0 first last p n k) <= 1.
Proof.
  intros w0 first last p n k Hk Hn2 Hv Hp.
  assert (S0 : 0 <= p_p (source w0 first p) <= 1 /\ p_v (source w0 first p) = 0) by (unfold source; destruct first; auto; destruct p; cbn; lra).
  assert (T0 : 0 <= target last p <= 1) by (unfold target; destruct last; try lra; destruct p; lra).
  assert (G : p = SwitchIn \/ p = SwitchOut -> 0 <= p_p (if pauses Z dT n then
        if Nat.ltb k n1 then spv (z_end Z) (source w0 first p) (1 / 2) k
        else if Nat.ltb k (n - n2) then still (1 / 2)
        else spv (INR n2 * dT) (still (1 / 2)) (target last p) (k - (n - n2))
      else spv (INR n * dT) (source w0 first p) (target last p) k) <= 1).
  { intros Q. destruct (pauses Z dT n) eqn:Ep.
    - destruct (pause_room n Ep) as (R1 & _). pose proof (Hn2 eq_refl Q) as R2. destruct (Nat.ltb_spec k n1).
      + apply spv_range; try tauto; try lra. apply n1_time; auto.
      + destruct (Nat.ltb_spec k (n - n2)); [cbn; lra|]. apply spv_range; cbn; try tauto; try lra; [apply n_time; lia|apply k_time; lia].
    - apply spv_range; try tauto; try lra; [apply n_time; lia|apply k_time; lia]. }
  destruct p; cbn [wval]; auto; cbn; lra.
Qed.

(** At the first instant of a phase after the first one the weight is what the previous phase ended with, at rest. *)
Lemma wval_start : forall w0 last p n, (0 < n)%nat -> (1 <= n1)%nat ->
  p_p (wval w0 false last p n 0) = (match p with Stance | SwitchOut => 1 | _ => 0 end) /\ p_v (wval w0 false last p n 0) = 0.
Proof.
  intros w0 last p n Hn Hn1.
  assert (P0 : forall T x0 x1, 0 < T -> p_p (spv T x0 x1 0) = p_p x0 /\ p_v (spv T x0 x1 0) = p_v x0).
  { intros T x0 x1 HT. unfold spv. cbn [INR]. rewrite Rmult_0_l. destruct (Hspl T (p_p x0) (p_v x0) (p_a x0) x1 HT) as (? & ? & ? & ? & _ & H1 & H2 & _). auto. }
  assert (G : forall q, (q = SwitchIn \/ q = SwitchOut) ->
    p_p (wval w0 false last q n 0) = p_p (source w0 false q) /\ p_v (wval w0 false last q n 0) = p_v (source w0 false q)).
  { intros q Q. assert (E : wval w0 false last q n 0 = if pauses Z dT n then
        if Nat.ltb 0 n1 then spv (z_end Z) (source w0 false q) (1 / 2) 0
        else if Nat.ltb 0 (n - n2) then still (1 / 2)
        else spv (INR n2 * dT) (still (1 / 2)) (target last q) (0 - (n - n2))
      else spv (INR n * dT) (source w0 false q) (target last q) 0) by (destruct Q as [-> | ->]; reflexivity).
    rewrite E. destruct (pauses Z dT n).
    - destruct (Nat.ltb_spec 0 n1); [|lia]. apply P0, Hend.
    - apply P0, n_time, Hn. }
  destruct p; [cbn; auto|apply (G SwitchIn); auto|apply (G SwitchOut); auto|cbn; auto].
Qed.
End Weights.
