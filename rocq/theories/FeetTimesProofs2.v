(** Proofs about the times of the feet and of the height of the CoM in doubles: the splines and the loop over the phases. *)
From Coq Require Import String Reals ZArith List Bool Lia Lra Sorting.Sorted.
From Flocq Require Import Core IEEE754.BinarySingleNaN.
From Verif Require Import Prelude Rounding GenPhases RoundedGen RoundedGenSpec RoundedGenProofs2 RoundedGenProofs3 FeetTraj FeetProofs
  Doubles DoublesGen DoublesSpec DoublesProofs DoublesExec GenProofs DcmTimesSpec DcmTimesProofs ZmpTimes ZmpTimesSpec ZmpTimesProofs FeetTimes FeetTimesSpec FeetTimesProofs.
Import ListNotations.
Open Scope R_scope.

(** ** Splines *)
Section Splines.
Variables dT apex : f64.
Hypothesis dT_ok : fin dT = true /\ bpow radix2 (-900) <= f2r dT <= bpow radix2 900.
Variable ph : list phase.
Hypothesis ph_ok : (Z.of_nat (length ph) <= 2 ^ 40)%Z.
Notation d := (f2r dT).
Notation dur := (z_dur ieee dT).
Variables n i : nat.
Hypothesis n0 : (0 < n)%nat.
Hypothesis room : (i + n <= length ph)%nat.
Definition inside (x : f64 * f64) : Prop := le64 fzero (fst x) /\ le64 (fst x) (snd x).
Lemma evals_inside : let out := map (fun k => (dur k, dur n)) (seq 0 n) in length out = n /\ forall x, In x out -> inside x.
Proof.
  cbv zeta. rewrite map_length, seq_length. split; auto. intros x Hx. apply in_map_iff in Hx. destruct Hx as (k & <- & Hk). apply in_seq in Hk.
  destruct (dur_val dT dT_ok ph ph_ok k ltac:(lia)) as (Fk & Vk & Pk). destruct (dur_val dT dT_ok ph ph_ok n ltac:(lia)) as (Fn & Vn & Pn).
  split; cbn [fst snd]; apply le_ok; auto; rewrite ?Vk, ?Vn; [change (f2r fzero) with 0; lra|]. apply T_mono; [apply dT_ok|lia].
Qed.
Lemma b64_pos : forall x, bpow radix2 (-1020) <= x -> 0 < b64 x.
Proof.
  intros x H. apply Rlt_le_trans with (b64 (bpow radix2 (-1020))); [|apply (r_mono _ b64_rounding); auto].
  rewrite b64_fix by (replace (bpow radix2 (-1020)) with (IZR 1 * bpow radix2 (-1020)) by ring; apply is_b64_dyadic; lia). apply bpow_gt_0.
Qed.
Lemma beq_no : forall x y, fin x = true -> fin y = true -> f2r x <> f2r y -> Beqb x y = false.
Proof. intros x y Fx Fy H. rewrite beq_ok by auto. unfold Reqb. destruct (Req_EM_T _ _); congruence. Qed.
Lemma cubic_ok : lt64 fzero apex /\ lt64 apex f1 -> bpow radix2 (-100) <= f2r apex ->
  exists out, c_swing ieee apex dT n i = Ok out /\ length out = n /\ forall x, In x out -> inside x.
Proof.
  intros Ha Lo. destruct (apex_val apex Ha) as (Fa & Va). destruct (dur_val dT dT_ok ph ph_ok n ltac:(lia)) as (Fn & Vn & Pn).
  destruct (Tn_pos dT dT_ok ph ph_ok n i n0 room) as (_ & T0). destruct (mul_dur dT dT_ok ph ph_ok n i n0 room apex Fa ltac:(lra)) as (_ & _ & Fm & Vm).
  pose proof (bpow_gt_0 radix2 (-910)).
  assert (Z0 : fin fzero = true) by reflexivity.
  assert (P : 0 < f2r (fmul apex (dur n))).
  { rewrite Vm. apply b64_pos. apply Rle_trans with (bpow radix2 (-100) * bpow radix2 (-910)); [rewrite <- bpow_plus; apply bpow_le; lia|]. apply Rmult_le_compat; auto; apply Rlt_le, bpow_gt_0. }
  assert (B : f2r (fmul apex (dur n)) < f2r (dur n)). { rewrite Vm, Vn. apply share_below; auto. rewrite <- (f2r_fix apex). apply b64_is. }
  unfold c_swing. cbn [a_eq a_mul ieee]. rewrite c0_zero. rewrite !beq_no; auto; try (change (f2r fzero) with 0; lra). cbn [orb]. eexists. split; [reflexivity|]. apply evals_inside.
Qed.
Lemma bump_ok : exists out, m_bump ieee dT n i = Ok out /\ length out = n /\ forall x, In x out -> inside x.
Proof.
  destruct (dur_val dT dT_ok ph ph_ok n ltac:(lia)) as (Fn & Vn & Pn). destruct (Tn_pos dT dT_ok ph ph_ok n i n0 room) as (_ & T0). pose proof (bpow_gt_0 radix2 (-910)).
  destruct (q1_ok 2 ltac:(lia)) as (F2 & V2).
  destruct (fdiv_ok (dur n) (a_q ieee 2 1) Fn) as (Fm & Vm); [lra|rewrite Vn, V2, Rabs_pos_eq by lra; pose proof (pow961_top 960 ltac:(lia)); lra|]. rewrite Vn, V2 in Vm.
  assert (Z0 : fin fzero = true) by reflexivity.
  assert (P : 0 < f2r (fdiv (dur n) (a_q ieee 2 1))).
  { rewrite Vm. apply b64_pos. assert (bpow radix2 (-1020) <= bpow radix2 (-910) / 2); [|lra]. replace (bpow radix2 (-910) / 2) with (bpow radix2 (-911)); [apply bpow_le; lia|].
    change (-911)%Z with (-910 + -1)%Z. rewrite bpow_plus. change (bpow radix2 (-1)) with (/ 2). lra. }
  assert (B : f2r (fdiv (dur n) (a_q ieee 2 1)) < f2r (dur n)).
  { rewrite Vm, Vn. replace (T d n / 2) with (/ 2 * T d n) by field. apply share_below; [lra|exact T0|]. change (/ 2) with (bpow radix2 (-1)). replace (bpow radix2 (-1)) with (IZR 1 * bpow radix2 (-1)) by ring. apply is_b64_dyadic; lia. }
  unfold m_bump. cbn [a_eq a_div ieee]. rewrite c0_zero. rewrite !beq_no; auto; try (change (f2r fzero) with 0; lra). cbn [orb]. eexists. split; [reflexivity|]. apply evals_inside.
Qed.
End Splines.

(** ** Loops *)
Section Loops.
Variable ph : list phase.
Variable Q : f64 * f64 -> Prop.
Definition complete (moving : phase -> bool) (i : nat) (ends : list nat) (out : list (option (f64 * f64))) : Prop :=
  length out = (length ph - i)%nat /\ (forall x, In (Some x) out -> Q x)
  /\ forall j a b k p s, nth_error (i :: ends) j = Some a -> nth_error (i :: ends) (S j) = Some b -> (a <= k < b)%nat ->
     nth_error ph a = Some p -> nth_error out (k - i) = Some s -> (s <> None <-> moving p = true).
Lemma sorted_last : forall l i, StronglySorted lt (i :: l) -> (i <= last (i :: l) 0)%nat.
Proof.
  induction l as [|e l IH]; intros i H; cbn [last]; [lia|]. apply StronglySorted_inv in H. destruct H as (H & F). specialize (IH e H). inversion_clear F. cbn [last] in IH. destruct l; lia.
Qed.
Lemma complete_cons : forall moving i e ends p piece rest, (i < e)%nat -> nth_error ph i = Some p -> length piece = (e - i)%nat -> (e <= length ph)%nat -> List.Forall (lt e) ends \/ True ->
  StronglySorted lt (i :: e :: ends) -> (forall x, In (Some x) piece -> Q x) -> (forall s, In s piece -> (s <> None <-> moving p = true)) ->
  complete moving e ends rest -> complete moving i (e :: ends) (piece ++ rest).
Proof.
  intros moving i e ends p piece rest Hie Hp Lp He _ Hs Qp Mp (L & Qr & Mr). split; [rewrite app_length, Lp, L; lia|]. split; [intros x Hx; apply in_app_or in Hx; destruct Hx; auto|].
  intros [|j] a b k p' s Ea Eb Hk Ep Es.
  - cbn in Ea, Eb. injection Ea as <-. injection Eb as <-. rewrite Hp in Ep. injection Ep as <-. rewrite nth_error_app1 in Es by lia. apply Mp. eapply nth_error_In; eauto.
  - change (nth_error (e :: ends) j = Some a) in Ea. change (nth_error (e :: ends) (S j) = Some b) in Eb.
    assert (Ge : (e <= a)%nat). { apply StronglySorted_inv in Hs. destruct Hs as (Hs & _). apply StronglySorted_inv in Hs. destruct Hs as (_ & F). rewrite List.Forall_forall in F.
      destruct j as [|j]; cbn in Ea; [injection Ea as <-; lia|]. apply nth_error_In in Ea. apply F in Ea. lia. }
    rewrite nth_error_app2 in Es by lia. apply (Mr j a b k p' s); auto. rewrite Lp in Es. replace (k - e)%nat with (k - i - (e - i))%nat by lia. exact Es.
Qed.
Lemma feet_loop_ok : forall swing, (forall n i, (0 < n)%nat -> (i + n <= length ph)%nat -> exists out, swing n i = Ok out /\ length out = n /\ forall x, In x out -> Q x) ->
  forall ends i st, StronglySorted lt (i :: ends) -> last (i :: ends) 0%nat = length ph -> (swings ph (i :: ends) < st)%nat ->
  exists out, j_loop ph swing ends i st = Ok out /\ complete is_swing i ends out.
Proof.
  intros swing Sw. induction ends as [|e ends IH]; intros i st Hs Hl Hst; cbn [j_loop].
  { cbn in Hl. exists []. split; auto. split; [cbn; lia|]. split; [intros x []|]. intros j a b k p s _ _ _ _ E. destruct (k - i)%nat; discriminate. }
  pose proof Hs as Hs0. apply StronglySorted_inv in Hs. destruct Hs as (Hs & F). inversion F as [|? ? Hie F2]; subst. assert (Hl2 : last (e :: ends) 0%nat = length ph) by (destruct ends; exact Hl).
  pose proof (sorted_last ends e Hs) as Hle. rewrite Hl2 in Hle.
  destruct (nth_error ph i) as [p|] eqn:Ep; [|apply nth_error_None in Ep; lia].
  assert (Sc : swings ph (i :: e :: ends) = ((if is_swing p then 1 else 0) + swings ph (e :: ends))%nat).
  { unfold swings. cbn [removelast filter]. rewrite Ep. destruct p; reflexivity. }
  destruct st as [|st]; [lia|].
  assert (Rest : p <> Swing -> exists out, (if Nat.ltb (length ph) (i + length (repeat (None : option (f64 * f64)) (e - i))) then UB
     else do rest <- j_loop ph swing ends (i + length (repeat (None : option (f64 * f64)) (e - i))) (S st); Ok (repeat None (e - i) ++ rest)) = Ok out /\ complete is_swing i (e :: ends) out).
  { intros Np. rewrite repeat_length. replace (i + (e - i))%nat with e by lia. destruct (Nat.ltb_spec (length ph) e); [lia|].
    destruct (IH e (S st) Hs Hl2) as (out & Eo & Co); [lia|]. rewrite Eo. cbn [rbind]. exists (repeat None (e - i) ++ out). split; auto.
    apply (complete_cons _ _ _ _ p); auto; [apply repeat_length| |].
    - intros x Hx. apply repeat_spec in Hx. discriminate.
    - intros s Hx. apply repeat_spec in Hx. subst s. split; [congruence|]. destruct p; try discriminate. congruence. }
  destruct p; try (apply Rest; discriminate). unfold sub_size. destruct (Nat.leb_spec i e); [|lia]. cbn [rbind].
  cbn [is_swing] in Sc. assert (St : exists st', st = S st') by (destruct st; [lia|eauto]). destruct St as (st' & ->).
  destruct (Sw (e - i)%nat i ltac:(lia) ltac:(lia)) as (out & Eo & Lo & Qo). rewrite Eo. cbn [rbind]. rewrite Lo. replace (i + (e - i))%nat with e by lia.
  destruct (Nat.ltb_spec (length ph) e); [lia|]. destruct (IH e (S st') Hs Hl2 ltac:(lia)) as (rest & Er & Cr). rewrite Er. cbn [rbind]. exists (map Some out ++ rest). split; auto.
  apply (complete_cons _ _ _ _ Swing); auto; [rewrite map_length; auto| |].
  - intros x Hx. apply in_map_iff in Hx. destruct Hx as (y & Ey & Hy). injection Ey as <-. auto.
  - intros s Hx. apply in_map_iff in Hx. destruct Hx as (y & <- & _). split; auto. discriminate.
Qed.
(** Without a step left to go to the loop fails, and does nothing worse. *)
Lemma feet_loop_fails : forall swing, (forall n i, (0 < n)%nat -> (i + n <= length ph)%nat -> exists out, swing n i = Ok out /\ length out = n /\ forall x, In x out -> Q x) ->
  forall ends i st, StronglySorted lt (i :: ends) -> last (i :: ends) 0%nat = length ph -> (0 < st <= swings ph (i :: ends))%nat -> j_loop ph swing ends i st = Fail.
Proof.
  intros swing Sw. induction ends as [|e ends IH]; intros i st Hs Hl Hst; cbn [j_loop].
  { unfold swings in Hst. cbn in Hst. lia. }
  apply StronglySorted_inv in Hs. destruct Hs as (Hs & F). inversion F as [|? ? Hie F2]; subst. assert (Hl2 : last (e :: ends) 0%nat = length ph) by (destruct ends; exact Hl).
  pose proof (sorted_last ends e Hs) as Hle. rewrite Hl2 in Hle.
  destruct (nth_error ph i) as [p|] eqn:Ep; [|apply nth_error_None in Ep; lia].
  assert (Sc : swings ph (i :: e :: ends) = ((if is_swing p then 1 else 0) + swings ph (e :: ends))%nat).
  { unfold swings. cbn [removelast filter]. rewrite Ep. destruct p; reflexivity. }
  destruct st as [|st]; [lia|].
  assert (Rest : p <> Swing -> (if Nat.ltb (length ph) (i + length (repeat (None : option (f64 * f64)) (e - i))) then UB
     else do rest <- j_loop ph swing ends (i + length (repeat (None : option (f64 * f64)) (e - i))) (S st); Ok (repeat None (e - i) ++ rest)) = Fail).
  { intros Np. rewrite repeat_length. replace (i + (e - i))%nat with e by lia. destruct (Nat.ltb_spec (length ph) e); [lia|].
    rewrite IH; auto. assert (is_swing p = false) by (destruct p; auto; congruence). rewrite H0 in Sc. lia. }
  destruct p; try (apply Rest; discriminate). unfold sub_size. destruct (Nat.leb_spec i e); [|lia]. cbn [rbind].
  cbn [is_swing] in Sc. destruct st as [|st]; auto.
  destruct (Sw (e - i)%nat i ltac:(lia) ltac:(lia)) as (out & Eo & Lo & Qo). rewrite Eo. cbn [rbind]. rewrite Lo. replace (i + (e - i))%nat with e by lia.
  destruct (Nat.ltb_spec (length ph) e); [lia|]. rewrite IH; auto. lia.
Qed.
Lemma height_loop_ok : forall dT, (forall n i, (0 < n)%nat -> (i + n <= length ph)%nat -> exists out, m_bump ieee dT n i = Ok out /\ length out = n /\ forall x, In x out -> Q x) ->
  forall ends i, StronglySorted lt (i :: ends) -> last (i :: ends) 0%nat = length ph ->
  exists out, m_loop ieee dT ph ends i = Ok out /\ complete is_single i ends out.
Proof.
  intros dT Sw. induction ends as [|e ends IH]; intros i Hs Hl; cbn [m_loop].
  { cbn in Hl. exists []. split; auto. split; [cbn; lia|]. split; [intros x []|]. intros j a b k p s _ _ _ _ E. destruct (k - i)%nat; discriminate. }
  pose proof Hs as Hs0. apply StronglySorted_inv in Hs. destruct Hs as (Hs & F). inversion F as [|? ? Hie F2]; subst. assert (Hl2 : last (e :: ends) 0%nat = length ph) by (destruct ends; exact Hl).
  pose proof (sorted_last ends e Hs) as Hle. rewrite Hl2 in Hle. destruct (IH e Hs Hl2) as (rest & Er & Cr).
  destruct (nth_error ph i) as [p|] eqn:Ep; [|apply nth_error_None in Ep; lia].
  assert (Rest : is_single p = false -> exists out, (if Nat.ltb (length ph) (i + length (repeat (None : option (f64 * f64)) (e - i))) then UB
     else do rest <- m_loop ieee dT ph ends (i + length (repeat (None : option (f64 * f64)) (e - i))); Ok (repeat None (e - i) ++ rest)) = Ok out /\ complete is_single i (e :: ends) out).
  { intros Np. rewrite repeat_length. replace (i + (e - i))%nat with e by lia. destruct (Nat.ltb_spec (length ph) e); [lia|].
    rewrite Er. cbn [rbind]. exists (repeat None (e - i) ++ rest). split; auto.
    apply (complete_cons _ _ _ _ p); auto; [apply repeat_length| |].
    - intros x Hx. apply repeat_spec in Hx. discriminate.
    - intros s Hx. apply repeat_spec in Hx. subst s. split; [congruence|]. congruence. }
  assert (Mov : is_single p = true -> exists out, (do n <- sub_size e i; do out <- m_bump ieee dT n i; if Nat.ltb (length ph) (i + length out) then UB
     else do rest <- m_loop ieee dT ph ends (i + length out); Ok (map Some out ++ rest)) = Ok out /\ complete is_single i (e :: ends) out).
  { intros Yp. unfold sub_size. destruct (Nat.leb_spec i e); [|lia]. cbn [rbind].
    destruct (Sw (e - i)%nat i ltac:(lia) ltac:(lia)) as (out & Eo & Lo & Qo). rewrite Eo. cbn [rbind]. rewrite Lo. replace (i + (e - i))%nat with e by lia.
    destruct (Nat.ltb_spec (length ph) e); [lia|]. rewrite Er. cbn [rbind]. exists (map Some out ++ rest). split; auto.
    apply (complete_cons _ _ _ _ p); auto; [rewrite map_length; auto| |].
    - intros x Hx. apply in_map_iff in Hx. destruct Hx as (y & Ey & Hy). injection Ey as <-. auto.
    - intros s Hx. apply in_map_iff in Hx. destruct Hx as (y & <- & _). split; auto. discriminate. }
  destruct p; auto.
Qed.
End Loops.
