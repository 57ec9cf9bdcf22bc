(** With exact arithmetic the times of FeetTimes.v are those of FeetTraj.v, FeetSpline.v and CoMHeight.v. *)
From Coq Require Import String Reals ZArith List Bool Lia Lra.
From Verif Require Import Prelude Rounding FootPrint GenPhases GenProofs FeetTraj FeetProofs FeetSpline FeetSplineProofs CoMHeight Doubles DoublesGen DoublesProofs3 DoublesProofs4 ZmpTimes FeetTimes.
Import ListNotations.
Open Scope R_scope.

Section Exact.
Variables apex dT : R.
Variable ph : list phase.
Hypothesis Ha : 0 < apex < 1.
Hypothesis HdT : 0 < dT.
(** The times at which the samples of a swing are interpolated. *)
Definition swing_time (n k : nat) : R * R :=
  let n1 := nround (INR n * apex) in
  (INR k * dT / (INR n * dT),
   if Nat.ltb k n1 then INR k * dT / (INR n * dT * apex) else (INR k * dT - INR n1 * dT) / (INR n * dT * (1 - apex))).
Lemma norm_exact : forall t d, 0 <= t <= d -> 0 < d -> j_norm reals t d = Ok (t / d).
Proof.
  intros t d H P. unfold j_norm. cbn [a_lt a_div reals]. rewrite c0_reals, c1_reals. pose proof (norm_range t d P H).
  unfold Rltb. destruct (Rlt_dec _ _); [lra|]. destruct (Rlt_dec _ _); [lra|]. reflexivity.
Qed.
Lemma sample_exact : forall n k k0 half, (k < n)%nat -> 0 <= INR k * dT - INR k0 * dT <= half -> 0 < half ->
  j_sample reals dT n k k0 half = Ok (INR k * dT / (INR n * dT), (INR k * dT - INR k0 * dT) / half).
Proof.
  intros n k k0 half Hk Ht Hh. unfold j_sample, z_dur. cbn [a_sub a_mul a_size reals]. cbn [INR].
  assert (INR k <= INR n) by (apply le_INR; lia). pose proof (pos_INR k). assert (0 < INR n) by (apply lt_0_INR; lia).
  rewrite norm_exact; [|split; nra|nra]. cbn [rbind]. rewrite norm_exact; auto. cbn [rbind]. rewrite Rmult_0_l, Rminus_0_r. reflexivity.
Qed.
Lemma up_exact : forall n i half B room k, (Z.to_nat B - k <= room)%nat -> 
  j_up reals dT n i half (IZR (Z.of_nat i + B)) room k = collect (map (fun k => j_sample reals dT n k 0 half) (seq k (Z.to_nat B - k))).
Proof.
  intros n i half B. induction room as [|room IH]; intros k Hr; cbn [j_up]; cbn [a_lt a_size reals]; rewrite INR_IZR_INZ; unfold Rltb; destruct (Rlt_dec _ _) as [L|L].
  - apply lt_IZR in L. lia.
  - replace (Z.to_nat B - k)%nat with 0%nat by lia. reflexivity.
  - apply lt_IZR in L. replace (Z.to_nat B - k)%nat with (S (Z.to_nat B - S k)) by lia. cbn [seq map collect]. destruct (j_sample reals dT n k 0 half); cbn [rbind]; auto. rewrite IH by lia. reflexivity.
  - assert (K : (Z.of_nat i + B <= Z.of_nat (i + k))%Z) by (apply le_IZR; lra). replace (Z.to_nat B - k)%nat with 0%nat by lia. reflexivity.
Qed.
Lemma collect_eq : forall {X : Type} (f : nat -> res X) g l, (forall k, In k l -> f k = Ok (g k)) -> collect (map f l) = Ok (map g l).
Proof. intros X f g. induction l as [|k l IH]; intros H; cbn [map collect]; auto. rewrite H by (left; auto). cbn [rbind]. rewrite IH by (intros; apply H; right; auto). reflexivity. Qed.
Theorem jerk_exact : forall n i, (i + n <= length ph)%nat -> j_swing reals whole_reals apex dT ph n i = Ok (map (swing_time n) (seq 0 n)).
Proof.
  intros n i Hi. unfold j_swing. cbn [a_add a_mul a_size a_sub reals w_round whole_reals]. rewrite c1_reals.
  pose proof (apex_count apex n Ha) as Hc. unfold nround in Hc. rewrite (INR_IZR_INZ i), <- plus_IZR, Z.add_comm. rewrite up_exact by lia. rewrite Nat.sub_0_r.
  change (Z.to_nat (Rround (INR n * apex))) with (nround (INR n * apex)) in *. set (n1 := nround (INR n * apex)) in *. unfold z_dur. cbn [a_mul a_size reals].
  rewrite (collect_eq _ (swing_time n)).
  2:{ intros k Hk. apply in_seq in Hk. destruct (up_times apex n k dT Ha HdT ltac:(fold n1; lia)) as (U1 & U2). rewrite sample_exact; auto; try lia; cbn [INR]; rewrite ?Rmult_0_l, ?Rminus_0_r; auto.
      unfold swing_time. fold n1. cbv zeta. destruct (Nat.ltb_spec k n1); [reflexivity|lia]. }
  cbn [rbind]. rewrite map_length, seq_length. rewrite (collect_eq _ (swing_time n)).
  2:{ intros k Hk. apply in_seq in Hk. destruct (down_times apex n k dT Ha HdT ltac:(fold n1; lia)) as (U1 & U2). fold n1 in U1. rewrite sample_exact; auto; try lia.
      unfold swing_time. fold n1. cbv zeta. destruct (Nat.ltb_spec k n1); [lia|reflexivity]. }
  cbn [rbind]. pose proof (seq_app n1 (n - n1) 0) as Es. change (0 + n1)%nat with n1 in Es. replace (n1 + (n - n1))%nat with n in Es by lia. rewrite Es, map_app. reflexivity.
Qed.
(** The loop over the phases. *)
Lemma loop_feet : forall (sw : nat -> nat -> res (list (R * R))) (swing : nat -> step -> step -> res (list sample)),
  (forall n i s0 s1, (i + n <= length ph)%nat -> rmap (@length _) (sw n i) = rmap (@length _) (swing n s0 s1)) ->
  forall ends i st, (forall e, In e ends -> (e <= length ph)%nat) -> rmap (@length _) (j_loop ph sw ends i (length st)) = rmap (@length _) (feet_loop swing ph ends i st).
Proof.
  intros sw swing H. induction ends as [|e r IH]; intros i st Hb; cbn [j_loop feet_loop]; auto. destruct (nth_error ph i) as [p|] eqn:Ep; auto.
  assert (Hr : forall e0, In e0 r -> (e0 <= length ph)%nat) by (intros; apply Hb; right; auto).
  assert (Go : forall st' (out : list (option (R * R))) (out' : list sample), length out = length out' -> rmap (@length _) (if Nat.ltb (length ph) (i + length out) then UB
      else do rest <- j_loop ph sw r (i + length out) (length st'); Ok (out ++ rest)) = rmap (@length _) (if Nat.ltb (length ph) (i + length out') then UB
      else do rest <- feet_loop swing ph r (i + length out') st'; Ok (out' ++ rest))).
  { intros st' out out' E. rewrite E. destruct (Nat.ltb _ _); auto. specialize (IH (i + length out')%nat st' Hr).
    destruct (j_loop ph sw r _ _), (feet_loop swing ph r _ _); cbn [rmap rbind] in *; try discriminate; auto. injection IH as IH. rewrite !app_length. congruence. }
  destruct st as [|s0 st]; [destruct p; auto|]. cbn [length].
  destruct p; try (apply (Go (s0 :: st)); rewrite !repeat_length; reflexivity).
  unfold sub_size. destruct (Nat.leb_spec i e); cbn [rbind rmap]; auto. destruct st as [|s1 st]; auto. cbn [length].
  specialize (H (e - i)%nat i s0 s1). assert (He : (e <= length ph)%nat) by (apply Hb; left; auto). specialize (H ltac:(lia)).
  destruct (sw (e - i)%nat i) as [out| |], (swing (e - i)%nat s0 s1) as [out'| |]; cbn [rmap rbind] in *; try discriminate; auto. injection H as H.
  specialize (Go (s1 :: st) (map Some out) out'). rewrite !map_length in Go. apply Go. auto.
Qed.
Lemma cubic_exact : forall spl2 spl3 c n i s0 s1, f_apex c = apex -> rmap (@length _) (c_swing reals apex dT n i) = rmap (@length _) (swing_spline spl2 spl3 c dT n s0 s1).
Proof.
  intros spl2 spl3 c n i s0 s1 E. unfold c_swing, swing_spline, z_dur. cbn [a_eq a_mul a_size reals]. rewrite c0_reals, E. destruct (_ || _ || _); cbn [rmap]; auto. rewrite !map_length. reflexivity.
Qed.
Lemma bump_exact : forall spl c n i, rmap (@length _) (m_bump reals dT n i) = rmap (@length _) (bump spl c dT n).
Proof.
  intros spl c n i. unfold m_bump, bump, z_dur. cbn [a_eq a_div a_q a_mul a_size reals]. rewrite c0_reals. replace (INR n * dT / (2 / 1)) with (INR n * dT / 2) by lra.
  unfold Reqb. destruct (Req_EM_T (INR n * dT) 0), (Req_EM_T (INR n * dT / 2) 0), (Req_EM_T (INR n * dT / 2) (INR n * dT)); cbn [orb rmap]; try lra; auto. rewrite !map_length. reflexivity.
Qed.
Lemma loop_height : forall spl c ends i, (forall e, In e ends -> (e <= length ph)%nat) -> rmap (@length _) (m_loop reals dT ph ends i) = rmap (@length _) (height_loop spl c dT ph ends i).
Proof.
  intros spl c. induction ends as [|e r IH]; intros i Hb; cbn [m_loop height_loop]; auto. destruct (nth_error ph i) as [p|] eqn:Ep; auto.
  assert (Hr : forall e0, In e0 r -> (e0 <= length ph)%nat) by (intros; apply Hb; right; auto).
  assert (Go : forall (out : list (option (R * R))) (out' : list pva), length out = length out' -> rmap (@length _) (if Nat.ltb (length ph) (i + length out) then UB
      else do rest <- m_loop reals dT ph r (i + length out); Ok (out ++ rest)) = rmap (@length _) (if Nat.ltb (length ph) (i + length out') then UB
      else do rest <- height_loop spl c dT ph r (i + length out'); Ok (out' ++ rest))).
  { intros out out' E. rewrite E. destruct (Nat.ltb _ _); auto. specialize (IH (i + length out')%nat Hr).
    destruct (m_loop reals dT ph r _), (height_loop spl c dT ph r _); cbn [rmap rbind] in *; try discriminate; auto. injection IH as IH. rewrite !app_length. congruence. }
  assert (Mv : rmap (@length _) (do n <- sub_size e i; do out <- m_bump reals dT n i; if Nat.ltb (length ph) (i + length out) then UB
          else do rest <- m_loop reals dT ph r (i + length out); Ok (map Some out ++ rest))
     = rmap (@length _) (do n <- sub_size e i; do out <- bump spl c dT n; if Nat.ltb (length ph) (i + length out) then UB
          else do rest <- height_loop spl c dT ph r (i + length out); Ok (out ++ rest))).
  { unfold sub_size. destruct (Nat.leb_spec i e); cbn [rbind rmap]; auto. pose proof (bump_exact spl c (e - i) i) as B.
    destruct (m_bump reals dT (e - i) i) as [out| |], (bump spl c dT (e - i)) as [out'| |]; cbn [rmap rbind] in *; try discriminate; auto. injection B as B.
    specialize (Go (map Some out) out'). rewrite !map_length in Go. apply Go. auto. }
  destruct p; try exact Mv; apply Go; rewrite !repeat_length; reflexivity.
Qed.
End Exact.
