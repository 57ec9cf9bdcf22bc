(** With exact arithmetic the times of ZmpTimes.v are those of the ZMP generator of ZMP.v. *)
From Coq Require Import String Reals ZArith List Bool Lia Lra.
From Flocq Require Import Core.Raux.
From Verif Require Import Prelude Rounding FootPrint GenPhases GenProofs FeetTraj ZMP Doubles DoublesGen DoublesProofs3 DoublesProofs4 DcmTimesExact ZmpTimes.
Import ListNotations.
Open Scope R_scope.

Lemma count_reals : forall B room i,
  z_count reals room i (IZR B) = if Z.leb (B - Z.of_nat i) (Z.of_nat room) then Ok (Z.to_nat (B - Z.of_nat i)) else UB.
Proof.
  intros B. induction room as [|room IH]; intros i; cbn [z_count]; cbn [a_lt a_size reals]; rewrite INR_IZR_INZ.
  - unfold Rltb. destruct (Rlt_dec _ _) as [L|L].
    + apply lt_IZR in L. destruct (Z.leb_spec (B - Z.of_nat i) (Z.of_nat 0)); auto. lia.
    + assert (K : (B <= Z.of_nat i)%Z) by (apply le_IZR; lra). destruct (Z.leb_spec (B - Z.of_nat i) (Z.of_nat 0)); [|lia]. f_equal. lia.
  - unfold Rltb. destruct (Rlt_dec _ _) as [L|L].
    + apply lt_IZR in L. rewrite IH.
      destruct (Z.leb_spec (B - Z.of_nat (S i)) (Z.of_nat room)), (Z.leb_spec (B - Z.of_nat i) (Z.of_nat (S room))); try lia; cbn [rbind]; auto. f_equal. lia.
    + assert (K : (B <= Z.of_nat i)%Z) by (apply le_IZR; lra). destruct (Z.leb_spec (B - Z.of_nat i) (Z.of_nat (S room))); [|lia]. f_equal. lia.
Qed.

Section Exact.
Variable spl : R -> R -> R -> R -> R -> R -> pva.
Variable Z : ztimes.
Variable dT : R.
Variable ph : list phase.
Hypothesis HdT : 0 < dT.
Hypothesis Hend : 0 <= z_end Z.
Hypothesis Hnom : 0 <= z_nom Z.
Notation zp := (z_pauses reals (z_pause Z) (z_max Z) (z_nom Z) (z_end Z) dT).
Notation zw := (z_weight_piece reals whole_reals (z_pause Z) (z_max Z) (z_nom Z) (z_end Z) dT ph).
Notation zl := (z_local_piece reals whole_reals (z_pause Z) (z_max Z) (z_nom Z) (z_end Z) dT ph).
Lemma zp_exact : forall n, zp n = pauses Z dT n.
Proof. intros n. unfold z_pauses, pauses, Rgtb, z_dur. cbn [a_lt a_add a_mul a_size reals]. rewrite max_exact. reflexivity. Qed.
Lemma spline_exact : forall T x0 x1 n, rmap (@length _) (spline_pts spl dT T x0 x1 n) = rmap (fun _ => n) (z_spline reals T).
Proof. intros. unfold spline_pts, z_spline. cbn [a_eq reals]. rewrite c0_reals. destruct (Reqb T 0); cbn [rmap]; auto. rewrite map_length, seq_length. reflexivity. Qed.
(** Same length and same outcome; leaving the buffer may be noticed later, by the loop over the phases. *)
Definition agrees {X Y : Type} (i : nat) (k : res (list X)) (r : res (list Y)) : Prop :=
  rmap (@length _) k = rmap (@length _) r \/ (k = UB /\ exists y, r = Ok y /\ (length ph < i + length y)%nat).
Lemma loop_exact : forall {X Y : Type} (kp : bool -> bool -> phase -> nat -> nat -> res (list X)) (rp : bool -> bool -> phase -> nat -> nat -> res (list Y)),
  (forall f l p i e, (e <= length ph)%nat -> (i < length ph)%nat -> agrees i (kp f l p i e) (rp f l p i e)) ->
  forall ends f i, (forall e, In e ends -> (e <= length ph)%nat) ->
  rmap (@length _) (phase_loop kp ph ends f i) = rmap (@length _) (phase_loop rp ph ends f i).
Proof.
  intros X Y kp rp H. induction ends as [|e r IH]; intros f i Hb; cbn [phase_loop]; auto. destruct (nth_error ph i) as [p|] eqn:Ep; auto.
  assert (Hi : (i < length ph)%nat) by (apply nth_error_Some; congruence).
  destruct (H f (match r with [] => true | _ => false end) p i e (Hb e (or_introl eq_refl)) Hi) as [A|(A & y & B & C)].
  - destruct (kp _ _ _ _ _) as [x| |], (rp _ _ _ _ _) as [y| |]; cbn [rmap rbind] in *; try discriminate; auto. injection A as A. rewrite A.
    destruct (Nat.ltb _ _); auto. specialize (IH false (i + length y)%nat (fun e H => Hb e (or_intror H))).
    destruct (phase_loop kp _ _ _ _) as [x'| |], (phase_loop rp _ _ _ _) as [y'| |]; cbn [rmap rbind] in *; try discriminate; auto.
    injection IH as IH. rewrite !app_length. congruence.
  - rewrite A, B. cbn [rbind rmap]. destruct (Nat.ltb_spec (length ph) (i + length y)); [reflexivity|lia].
Qed.
Lemma evals_length : forall (T : R) n, length (z_evals reals dT T n) = n.
Proof. intros. unfold z_evals. rewrite map_length, seq_length. reflexivity. Qed.

Lemma local_exact : forall zs zw' f l p i e, (e <= length ph)%nat -> (i < length ph)%nat -> agrees i (zl f l p i e) (local_piece spl Z dT zs zw' f l p i e).
Proof.
  intros zs zw' f l p i e He Hi. unfold z_local_piece, local_piece. destruct p.
  - left. unfold sub_size. destruct (Nat.leb_spec i e); cbn [rbind rmap]; auto. set (n := (e - i)%nat).
    change (z_dur reals dT n) with (INR n * dT).
    pose proof (spline_exact (INR n * dT) (still (vx zs)) (vx zw') n) as E1. pose proof (spline_exact (INR n * dT) (still (vy zs)) (vy zw') n) as E2.
    destruct (z_spline reals (INR n * dT)); cbn [rmap rbind] in *;
      destruct (spline_pts spl dT (INR n * dT) (still (vx zs)) (vx zw') n) as [xs| |]; cbn [rmap rbind] in *; try discriminate; auto.
    destruct (spline_pts spl dT (INR n * dT) (still (vy zs)) (vy zw') n) as [ys| |]; cbn [rmap rbind] in *; try discriminate; auto.
    injection E1 as E1. injection E2 as E2. rewrite evals_length, map_length, combine_length. f_equal. lia.
  - left. cbn [rmap]. rewrite !repeat_length. reflexivity.
  - destruct f; [left; cbn [rmap]; rewrite !repeat_length; reflexivity|]. unfold sub_size. destruct (Nat.leb_spec i e) as [L|L]; cbn [rbind rmap]; [|left; reflexivity].
    set (n := (e - i)%nat). rewrite zp_exact. change (z_dur reals dT n) with (INR n * dT). cbn [a_div a_q a_add a_size reals w_ceil whole_reals].
    replace (INR n * dT / (2 / 1)) with (INR n * dT / 2) by lra.
    set (T := if pauses Z dT n then z_end Z else if l then INR n * dT else INR n * dT / 2).
    assert (T0 : 0 <= T). { pose proof (Rmult_le_pos (INR n) dT (pos_INR n) ltac:(lra)). unfold T. destruct (pauses Z dT n); [lra|]. destruct l; lra. }
    assert (Q0 : 0 <= T / dT) by (apply Rmult_le_pos; [lra|apply Rlt_le, Rinv_0_lt_compat; lra]).
    assert (C0 : (0 <= Zceil (T / dT))%Z) by (apply le_IZR; eapply Rle_trans; [exact Q0|apply Zceil_ub]).
    unfold size_ceil, to_size. destruct (Z.ltb_spec (Zceil (T / dT)) 0); [lia|]. cbn [rbind].
    pose proof (spline_exact T (still (vx zw')) (vx zs) (Z.to_nat (Zceil (T / dT)))) as E1. pose proof (spline_exact T (still (vy zw')) (vy zs) (Z.to_nat (Zceil (T / dT)))) as E2.
    destruct (z_spline reals T); cbn [rmap rbind] in *;
      destruct (spline_pts spl dT T (still (vx zw')) (vx zs) _) as [xs| |]; cbn [rmap rbind] in *; try discriminate; try (left; reflexivity).
    destruct (spline_pts spl dT T (still (vy zw')) (vy zs) _) as [ys| |]; cbn [rmap rbind] in *; try discriminate; try (left; reflexivity).
    injection E1 as E1. injection E2 as E2. unfold z_while. rewrite INR_IZR_INZ, <- plus_IZR, count_reals.
    set (c := Zceil (T / dT)) in *. replace (Z.of_nat i + c - Z.of_nat i)%Z with c by lia.
    destruct (Z.leb_spec c (Z.of_nat (length ph - i))); cbn [rbind].
    + left. cbn [rmap]. rewrite !app_length, evals_length, !repeat_length, map_length, combine_length. f_equal. lia.
    + right. split; auto. eexists. split; [reflexivity|]. rewrite app_length, map_length, combine_length, repeat_length. lia.
  - left. cbn [rmap]. rewrite !repeat_length. reflexivity.
Qed.

Lemma collect_len : forall {X : Type} (l : list (res X)), (forall r, In r l -> exists x, r = Ok x) -> rmap (@length X) (collect l) = Ok (length l).
Proof.
  induction l as [|r l IH]; intros H; [reflexivity|]. destruct (H r (or_introl eq_refl)) as (x & ->). cbn [collect rbind].
  specialize (IH (fun r Hr => H r (or_intror Hr))). destruct (collect l); cbn [rmap rbind] in *; try discriminate. injection IH as IH. cbn [length]. congruence.
Qed.
Lemma weight_exact : forall w0 f l p i e, (e <= length ph)%nat -> (i < length ph)%nat -> agrees i (zw f l p i e) (weight_piece spl Z dT ph w0 f l p i e).
Proof.
  intros w0 f l p i e He Hi. left. unfold z_weight_piece, weight_piece.
  assert (Col : rmap (@length _) (Ok (repeat (None : zsample R) (e - i))) = rmap (@length _) (collect (map (fun i => match nth_error ph i with
                             | None => UB | Some Stance => Ok (still 1) | Some _ => Ok (still 0) end) (seq i (e - i))))).
  { rewrite collect_len. { cbn [rmap]. rewrite repeat_length, map_length, seq_length. reflexivity. }
    intros r Hr. apply in_map_iff in Hr. destruct Hr as (k & <- & Hk). apply in_seq in Hk. destruct (nth_error ph k) as [[]|] eqn:Ek; eauto. apply nth_error_None in Ek. lia. }
  assert (Pz : forall x, 0 <= x -> (0 <= Rround (x / dT))%Z) by (intros x Hx; apply Rround_nonneg, Rmult_le_pos; [lra|apply Rlt_le, Rinv_0_lt_compat; lra]).
  assert (Main : forall x0, rmap (@length _)
     (do n <- sub_size e i;
      do pre <- (if zp n then
          do _ <- z_spline reals (z_end Z);
          do k <- z_while reals ph i (a_add reals (a_size reals i) (w_round whole_reals (a_div reals (z_end Z) dT)));
          do k' <- z_while reals ph (i + k) (a_sub reals (a_size reals e) (w_round whole_reals (a_div reals (z_nom Z) dT)));
          Ok (z_evals reals dT (z_end Z) k ++ repeat None k')
        else Ok []);
      do _ <- (if l then Ok tt else match nth_error ph (i + length pre) with None => UB | Some _ => Ok tt end);
      do m <- sub_size n (length pre);
      do _ <- z_spline reals (z_dur reals dT m);
      Ok (pre ++ z_evals reals dT (z_dur reals dT m) m))
     = rmap (@length _)
     (do n <- sub_size e i;
      do (pre, x0') <- (if pauses Z dT n then
          do out1 <- spline_pts spl dT (z_end Z) x0 (1 / 2) (nround (z_end Z / dT));
          Ok (out1 ++ repeat (still (1 / 2)) (n - nround (z_nom Z / dT) - length out1), still (1 / 2))
        else Ok ([], x0));
      do x1 <- (if l then Ok (1 / 2) else match nth_error ph (i + length pre) with
                                            | None => UB
                                            | Some SwitchIn => Ok 1
                                            | Some _ => Ok 0
                                            end);
      do m <- sub_size n (length pre);
      do out <- spline_pts spl dT (INR m * dT) x0' x1 m;
      Ok (pre ++ out))).
  { intros x0. unfold sub_size at 1 3. destruct (Nat.leb_spec i e) as [L|L]; cbn [rbind rmap]; auto. set (n := (e - i)%nat). rewrite zp_exact.
    assert (Rest : forall (pre : list (zsample R)) (pre' : list pva) x0', length pre = length pre' -> rmap (@length _)
       (do _ <- (if l then Ok tt else match nth_error ph (i + length pre) with None => UB | Some _ => Ok tt end);
        do m <- sub_size n (length pre); do _ <- z_spline reals (z_dur reals dT m); Ok (pre ++ z_evals reals dT (z_dur reals dT m) m))
       = rmap (@length _)
       (do x1 <- (if l then Ok (1 / 2) else match nth_error ph (i + length pre') with None => UB | Some SwitchIn => Ok 1 | Some _ => Ok 0 end);
        do m <- sub_size n (length pre'); do out <- spline_pts spl dT (INR m * dT) x0' x1 m; Ok (pre' ++ out))).
    { intros pre pre' x0' El. rewrite El.
      assert (K : forall x1, rmap (@length _) (do m <- sub_size n (length pre'); do _ <- z_spline reals (z_dur reals dT m); Ok (pre ++ z_evals reals dT (z_dur reals dT m) m))
         = rmap (@length _) (do m <- sub_size n (length pre'); do out <- spline_pts spl dT (INR m * dT) x0' x1 m; Ok (pre' ++ out))).
      { intros x1. destruct (sub_size n (length pre')) as [m| |]; cbn [rbind rmap]; auto. change (z_dur reals dT m) with (INR m * dT).
        pose proof (spline_exact (INR m * dT) x0' x1 m) as E. destruct (z_spline reals (INR m * dT)); cbn [rmap rbind] in *;
          destruct (spline_pts spl dT (INR m * dT) x0' x1 m) as [xs| |]; cbn [rmap rbind] in *; try discriminate; auto.
        injection E as E. rewrite !app_length, evals_length. f_equal. lia. }
      destruct l; cbn [rbind]; [apply K|]. destruct (nth_error ph (i + length pre')) as [[]|]; cbn [rbind rmap]; auto; apply K. }
    destruct (pauses Z dT n).
    - pose proof (spline_exact (z_end Z) x0 (1 / 2) (nround (z_end Z / dT))) as E.
      destruct (z_spline reals (z_end Z)); cbn [rmap rbind] in *;
        destruct (spline_pts spl dT (z_end Z) x0 (1 / 2) (nround (z_end Z / dT))) as [out1| |]; cbn [rmap rbind] in *; try discriminate; auto.
      injection E as E. cbn [a_add a_sub a_size a_div reals w_round whole_reals]. unfold z_while. rewrite !(INR_IZR_INZ i), <- plus_IZR, count_reals.
      pose proof (Pz _ Hend) as R1. pose proof (Pz _ Hnom) as R2. unfold nround in *. set (r1 := Rround (z_end Z / dT)) in *. set (r2 := Rround (z_nom Z / dT)) in *.
      replace (Z.of_nat i + r1 - Z.of_nat i)%Z with r1 by lia.
      destruct (Z.leb_spec r1 (Z.of_nat (length ph - i))) as [K|K]; cbn [rbind].
      + rewrite (INR_IZR_INZ e), <- minus_IZR, count_reals.
        destruct (Z.leb_spec (Z.of_nat e - r2 - Z.of_nat (i + Z.to_nat r1)) (Z.of_nat (length ph - (i + Z.to_nat r1)))) as [K'|K']; [|lia]. cbn [rbind].
        apply Rest. rewrite !app_length, evals_length, !repeat_length. lia.
      + cbn [rmap]. set (pre' := out1 ++ _). assert (Lp : (length ph < i + length pre')%nat) by (unfold pre'; rewrite app_length, repeat_length; lia).
        assert (Kr : forall x1, rmap (@length _) (do m <- sub_size n (length pre'); do out <- spline_pts spl dT (INR m * dT) (still (1 / 2)) x1 m; Ok (pre' ++ out)) = UB).
        { intros x1. unfold sub_size. destruct (Nat.leb_spec (length pre') n); [lia|reflexivity]. }
        destruct l; cbn [rbind]; [rewrite Kr; reflexivity|]. destruct (nth_error ph (i + length pre')) eqn:En; [|reflexivity]. assert (nth_error ph (i + length pre') <> None) by congruence. apply nth_error_Some in H. lia.
    - cbn [rbind]. apply Rest. reflexivity. }
  destruct p; auto.
Qed.

Theorem times_exact : forall shift zs zw' w0, (forall e, In e (tl shift) -> (e <= length ph)%nat) ->
  rmap (@length _) (z_weight reals whole_reals (z_pause Z) (z_max Z) (z_nom Z) (z_end Z) dT ph shift) = rmap (@length _) (foot_weight spl Z dT ph w0 shift)
  /\ rmap (@length _) (z_local reals whole_reals (z_pause Z) (z_max Z) (z_nom Z) (z_end Z) dT ph shift) = rmap (@length _) (local_zmp spl Z dT ph zs zw' shift).
Proof.
  intros shift zs zw' w0 H. split; apply loop_exact; auto; [apply weight_exact|apply local_exact].
Qed.
End Exact.

(** ** Steps *)
Definition bare (s : step) : nstep R := MkN true 0%nat (st_time s) (st_name s).
Lemma named_exact : forall ord n i, z_named (map bare ord) n i = last_named ord n i.
Proof.
  intros ord n. induction i as [|i IH]; cbn [z_named last_named]; rewrite nth_error_map; destruct (nth_error ord _) as [s|]; cbn [option_map bare n_name]; auto.
  destruct (String.eqb (st_name s) n); auto.
Qed.
Lemma back_exact : forall ord n t i, z_back reals (map bare ord) n t i = seek_back ord n t i.
Proof.
  intros ord n t. induction i as [|i IH]; cbn [z_back seek_back]; rewrite nth_error_map; destruct (nth_error ord _) as [s|]; cbn [option_map bare n_name n_time a_lt reals]; auto.
  unfold Rgtb. destruct (negb _ || _); auto.
Qed.
Lemma seek_exact : forall ord n t i, z_seek reals (map bare ord) n t i = seek ord n t i.
Proof.
  intros ord n t i. unfold z_seek, seek. rewrite nth_error_map. destruct (nth_error ord i) as [s|]; cbn [option_map bare n_time a_lt reals]; auto.
  unfold Rgtb. destruct (Rltb _ _); auto. apply back_exact.
Qed.
Lemma back_some : forall ord n t i r, seek_back ord n t i = Ok r -> exists s, nth_error ord r = Some s.
Proof.
  intros ord n t. induction i as [|i IH]; intros r; cbn [seek_back]; destruct (nth_error ord _) as [s|] eqn:E; try discriminate; destruct (negb _ || _); try discriminate; auto; intros H; injection H as <-; eauto.
Qed.
Lemma seek_some : forall ord n t i r, seek ord n t i = Ok r -> exists s, nth_error ord r = Some s.
Proof.
  intros ord n t i r. unfold seek. destruct (nth_error ord i) as [s|] eqn:E; try discriminate. destruct (Rgtb _ _); [apply back_some|]. intros H. injection H as <-. eauto.
Qed.
Theorem steps_exact : forall spl init dT s1 oldL oldR ord nameL nameR wl wr zl zr n,
  length wl = n -> length wr = n -> length zl = n -> length zr = n ->
  rmap (@length _) (z_global reals init dT (map bare ord) nameL nameR n) = rmap (@length _) (global_zmp spl init dT s1 oldL oldR ord nameL nameR wl wr zl zr).
Proof.
  intros spl init dT s1 oldL oldR ord nameL nameR wl wr zl zr n L1 L2 L3 L4. unfold z_global, global_zmp. rewrite map_length.
  destruct (sub_size (length ord) 1); cbn [rbind rmap]; auto. rewrite !named_exact. destruct (last_named ord nameL _) as [li| |]; cbn [rbind rmap]; auto.
  destruct (last_named ord nameR _) as [ri| |]; cbn [rbind rmap]; auto. rewrite L3.
  assert (K : forall k li ri acc acc', (k <= n)%nat -> length acc = length acc' -> rmap (@length _) (z_steps reals init dT (map bare ord) nameL nameR k li ri acc)
     = rmap (@length _) (global_loop spl init dT s1 oldL oldR ord nameL nameR wl wr zl zr k li ri acc')).
  { clear li ri. induction k as [|k IH]; intros li ri acc acc' Hk El; cbn [z_steps global_loop]; [cbn [rmap]; congruence|].
    cbn [a_add a_mul a_size reals]. rewrite !seek_exact. destruct (seek ord nameL _ li) as [li'| |] eqn:S1; cbn [rbind rmap]; auto.
    destruct (seek ord nameR _ ri) as [ri'| |] eqn:S2; cbn [rbind rmap]; auto. apply seek_some in S1, S2. destruct S1 as (sa & ->), S2 as (sb & ->).
    destruct (nth_error wl k) eqn:Ea; [|apply nth_error_None in Ea; lia]. destruct (nth_error wr k) eqn:Eb; [|apply nth_error_None in Eb; lia].
    destruct (nth_error zl k) eqn:Ex; [|apply nth_error_None in Ex; lia]. destruct (nth_error zr k) eqn:Ey; [|apply nth_error_None in Ey; lia].
    apply IH; [lia|]. cbn. congruence. }
  apply K; auto.
Qed.
