(** C110: the poses the planner reads from the integrated unicycle. *)
From Coq Require Import Reals ZArith List Bool Lia Lra.
From Flocq Require Import Core IEEE754.BinarySingleNaN.
From Verif Require Import Prelude Rounding RoundedGen RoundedGenSpec RoundedGenProofs2 RoundedGenProofs3 Controllers ControlSpec Doubles DoublesSpec DoublesProofs DoublesProofs2 CtrlDoubles CtrlDoublesSpec CtrlDoublesProofs
  StepDoublesSpec StepDoublesProofs StepDoublesProofs5 EllDoublesProofs EllDoublesProofs2 UniDoubles UniDoublesSpec UniDoublesProofs UniDoublesProofs2 Properties_UniDoubles PersonDoubles PersonDoublesSpec PersonDoublesProofs
  Properties_PersonDoubles IntDoubles IntDoublesSpec IntDoublesProofs.
Import ListNotations.
Open Scope R_scope.

Lemma le64_f2r : forall x y, fin x = true -> fin y = true -> f2r x <= f2r y -> Bleb x y = true.
Proof. intros x y Fx Fy H. apply le64_key; auto using fin_number. rewrite !key_fin; auto. Qed.
(** Within the integrated interval the pose is the sample nearest in time, with and without assertions. *)
Theorem C110_nearest : forall dbg h t0 u0 r T t, let sol := (t0, u0) :: r in grid t0 T h (length r) -> fst (last sol (t0, u0)) = T -> during t0 T t ->
  exists j, (j <= length r)%nat /\ nearest t0 h t j /\ i_solution ieee dbg h sol t = Ok (snd (nth j sol (t0, u0))).
Proof.
  intros dbg h t0 u0 r T t sol G L D. destruct (index_ok t0 T h (length r) G t D) as (j & Ej & Hj & Nj & _). exists j. split; [exact Hj|]. split; [exact Nj|].
  destruct G as [((F0 & _) & (FT & _) & _) _ _ _]. destruct D as (Ft & L0 & L1). unfold i_solution, sol. fold sol. rewrite L. cbn [a_le a_div a_sub ieee]. rewrite (le64_f2r t0 t), (le64_f2r t T) by auto. cbn [andb negb]. rewrite Bool.andb_false_r.
  unfold quot in Ej. rewrite Ej. unfold sol. cbn [length]. rewrite Nat.sub_succ, Nat.sub_0_r, Nat.min_l by auto. reflexivity.
Qed.
Print Assumptions C110_nearest.

Lemma part_lasting : forall c steps, 0 <= c -> List.Forall step_ok steps -> List.Forall (fun s => f2r (snd s) <= c) steps -> lasting steps <= INR (length steps) * c.
Proof.
  intros c steps C0 H1 H2. induction steps as [|s r IH]; [unfold lasting; cbn; lra|]. inversion H1; inversion H2; subst. specialize (IH ltac:(auto) ltac:(auto)). unfold lasting in *. cbn [map total length]. rewrite S_INR. lra.
Qed.
Lemma lasting_app : forall a b, lasting (a ++ b) = lasting a + lasting b.
Proof. intros a b. unfold lasting. rewrite map_app. induction a as [|x a IH]; cbn [map app total]; [lra|]. rewrite IH. lra. Qed.
Lemma sol_nth : forall T steps (tr : list (dpose f64)) j d, length tr = S (length steps) -> (j <= length steps)%nat -> snd (nth j (solution T steps tr) d) = nth j tr (snd d).
Proof.
  intros T steps tr j (dt, dp) L H. unfold solution. rewrite (combine_nth _ _ j dt dp) by (rewrite app_length, map_length; cbn; lia). reflexivity.
Qed.

(** The poses read for two times are no further apart than the limits allow for the time between them and one integration step. *)
Theorem C110_speed : forall K ctl l lin ang sq c s at2 W steps k u tr dbg h t0 T t t', List.Forall tame l -> sat64 l = Some (lin, ang) -> moderate lin ang (turn64 l) (back64 l) (side64 l) ->
  close_trig c s -> answers W K ctl -> List.Forall step_ok steps -> pose_fin u ->
  let V := top_speed (f2r lin) (f2r (back64 l)) (f2r (side64 l)) in let n := length steps in world (W / 2) V (f2r ang) (lasting steps) n u -> W <= bpow radix2 400 ->
  u_trace ieee (ieee_maths sq c s at2) ctl (settings ieee l) k u steps = Some tr ->
  hd T (map fst steps) = t0 -> grid t0 T h n -> List.Forall (fun x => f2r (snd x) <= f2r h * (1 + bpow radix2 (-40))) steps ->
  during t0 T t -> during t0 T t' -> f2r t <= f2r t' ->
  exists p p', i_solution ieee dbg h (solution T steps tr) t = Ok p /\ i_solution ieee dbg h (solution T steps tr) t' = Ok p' /\ pose_fin p /\ pose_fin p'
  /\ let Tm := (f2r t' - f2r t + 65 / 64 * f2r h) * (1 + bpow radix2 (-40)) in
     moved p p' <= V * Tm + INR n * (W * bpow radix2 (-48)) /\ Rabs (f2r (d_th p') - f2r (d_th p)) <= f2r ang * Tm + INR n * (W * bpow radix2 (-51)).
Proof.
  intros K ctl l lin ang sq c s at2 W steps k u tr dbg h t0 T t t' TL SL MD TR AN OK PF V n WD WB TE HD G SH D D' L.
  pose proof (trace_length _ _ _ _ _ _ _ _ _ _ TE) as LT. fold n in LT. destruct tr as [|u0 tr']; [discriminate|]. cbn [length] in LT. injection LT as LT.
  assert (SE : exists r, solution T steps (u0 :: tr') = (t0, u0) :: r /\ length r = n /\ fst (last ((t0, u0) :: r) (t0, u0)) = T).
  { unfold solution. assert (LC : length (combine (map fst steps ++ [T]) (u0 :: tr')) = S n) by (rewrite combine_length, app_length, map_length; cbn [length]; fold n; lia).
    assert (ES : exists r, combine (map fst steps ++ [T]) (u0 :: tr') = (t0, u0) :: r). { destruct steps as [|x r]; cbn [map app combine hd] in *; subst t0; eexists; reflexivity. } destruct ES as (r & ES). exists r. split; [exact ES|]. rewrite ES in LC. cbn [length] in LC. split; [lia|].
    rewrite <- ES. set (ll := combine _ _). assert (EL : last ll (t0, u0) = nth n ll (t0, u0)). { assert (W0 : forall (A : Type) (q : list A) d, last q d = nth (length q - 1) q d). { intros A q d. induction q as [|a q IH]; [reflexivity|]. destruct q as [|b q]; [reflexivity|]. cbn [last length nth]. cbn [last length] in IH. rewrite IH. cbn [Nat.sub]. rewrite Nat.sub_0_r. reflexivity. } rewrite W0. unfold ll. rewrite ES. cbn [length]. f_equal. lia. }
    rewrite EL. unfold ll. rewrite combine_nth by (rewrite app_length, map_length; cbn [length]; fold n; lia). cbn [fst]. rewrite app_nth2 by (rewrite map_length; fold n; lia). rewrite map_length. fold n. rewrite Nat.sub_diag. reflexivity. }
  destruct SE as (r & SE & LR & LL). rewrite SE.
  assert (G' : grid t0 T h (length r)) by (rewrite LR; exact G).
  destruct (index_ok t0 T h n G t D) as (i & Ei & Hi & Ni & _). destruct (index_ok t0 T h n G t' D') as (j & Ej & Hj & Nj & _). pose proof (index_mono t0 T h n G t t' i j D D' L Ei Ej) as IJ.
  assert (SOL : forall x ix, during t0 T x -> a_round ieee (quot x t0 h) = Ok ix -> (ix <= n)%nat -> i_solution ieee dbg h ((t0, u0) :: r) x = Ok (nth ix (u0 :: tr') u0)).
  { intros x ix (Fx & L0 & L1) Ex Hx. destruct G as [((F0 & _) & (FT & _) & _) _ _ _]. unfold i_solution. rewrite LL. cbn [a_le a_div a_sub ieee]. rewrite (le64_f2r t0 x), (le64_f2r x T) by auto. cbn [andb negb]. rewrite Bool.andb_false_r.
    unfold quot in Ex. rewrite Ex. cbn [length]. rewrite Nat.sub_succ, Nat.sub_0_r, LR, Nat.min_l by auto. rewrite <- SE. rewrite sol_nth by (cbn [length]; fold n; lia). reflexivity. }
  exists (nth i (u0 :: tr') u0), (nth j (u0 :: tr') u0). split; [apply SOL; auto|]. split; [apply SOL; auto|].
  destruct (trace_part _ _ _ _ _ _ _ _ _ _ i j u0 TE ltac:(fold n; lia)) as (ki & kj & R1 & R2). set (p := nth i (u0 :: tr') u0) in *. set (p' := nth j (u0 :: tr') u0) in *. set (s1 := firstn i steps) in *. set (s2 := firstn (j - i) (skipn i steps)) in *.
  assert (SPL : exists s3, steps = s1 ++ s2 ++ s3) by (exists (skipn (j - i) (skipn i steps)); unfold s1, s2; rewrite firstn_skipn, firstn_skipn; reflexivity). destruct SPL as (s3 & SPL).
  assert (O1 : List.Forall step_ok s1 /\ List.Forall step_ok s2 /\ List.Forall step_ok s3). { rewrite SPL in OK. apply Forall_app in OK. destruct OK as (X & Y). apply Forall_app in Y. tauto. } destruct O1 as (O1 & O2 & O3).
  assert (LS : lasting steps = lasting s1 + (lasting s2 + lasting s3)) by (rewrite SPL, !lasting_app; reflexivity). assert (P1 : 0 <= lasting s1) by (apply lasting_pos; auto). assert (P2 : 0 <= lasting s2) by (apply lasting_pos; auto). assert (P3 : 0 <= lasting s3) by (apply lasting_pos; auto).
  assert (N1 : length s1 = i) by (unfold s1; rewrite firstn_length; fold n; lia). assert (N2 : length s2 = (j - i)%nat) by (unfold s2; rewrite firstn_length, skipn_length; fold n; lia).
  assert (I1 : INR (length s1) <= INR n) by (apply le_INR; lia). assert (I2 : INR (length s2) <= INR n) by (apply le_INR; lia). pose proof (pos_INR n) as In0.
  destruct WD as [(WS1 & WS2) WS (WL1 & WL2) WF (WR1 & WR2)]. assert (V0 : 0 <= V) by apply sqrt_pos. assert (A0 : 0 <= f2r ang). { destruct (sat_settings l lin ang TL SL) as (_ & _ & _ & Z). apply le64_inv in Z. rewrite key_0, key_fin in Z by apply MD. exact Z. }
  assert (VT1 : V * lasting s1 <= V * lasting steps) by (apply Rmult_le_compat_l; lra). assert (VT2 : V * lasting s2 <= V * lasting steps) by (apply Rmult_le_compat_l; lra). assert (AT1 : f2r ang * lasting s1 <= f2r ang * lasting steps) by (apply Rmult_le_compat_l; lra). assert (AT2 : f2r ang * lasting s2 <= f2r ang * lasting steps) by (apply Rmult_le_compat_l; lra).
  assert (AN' : answers (W / 2) K ctl). { intros q1 q2 q3 q4 q5 q6 (q7 & q8 & q9) q10. eapply AN; try eassumption. unfold within. lra. }
  destruct (C108_travel K ctl l lin ang sq c s at2 (W / 2) s1 k u ki p TL SL MD TR AN' O1 PF) as (PP & MV & TH); [|exact R1|]. { fold V. constructor; auto; repeat split; try lra; auto. } fold V in MV.
  assert (SM : forall e, (e <= -48)%Z -> INR (length s1) * (W / 2 * bpow radix2 e) <= W / 64). { intros e He. assert (Q : INR n * bpow radix2 e <= / 256). { change (/ 256) with (bpow radix2 (-8)). replace (bpow radix2 (-8)) with (bpow radix2 40 * bpow radix2 (-48)) by (rewrite <- bpow_plus; reflexivity). apply Rmult_le_compat; auto; [apply bpow_ge_0|apply bpow_le; auto]. }
    assert (Q' : INR (length s1) * bpow radix2 e <= / 256) by (eapply Rle_trans; [|exact Q]; apply Rmult_le_compat_r; [apply bpow_ge_0|auto]). replace (INR (length s1) * (W / 2 * bpow radix2 e)) with (INR (length s1) * bpow radix2 e * (W / 2)) by ring. assert (INR (length s1) * bpow radix2 e * (W / 2) <= / 256 * (W / 2)) by (apply Rmult_le_compat_r; lra). lra. }
  pose proof (SM (-48)%Z ltac:(lia)) as S48. pose proof (SM (-51)%Z ltac:(lia)) as S51.
  assert (WP : within (W / 2) p). { destruct WS as (B1 & B2 & B3). assert (X : forall a b, Rabs a <= moved u p -> Rabs (f2r b) <= W / 2 / 2 -> Rabs (a + f2r b) <= W / 2) by (intros a b Ha Hb; pose proof (Rabs_triang a (f2r b)); lra).
    assert (M1 : forall a b, Rabs a <= sqrt (a * a + b * b) /\ Rabs b <= sqrt (a * a + b * b)). { intros a b. pose proof (Rle_0_sqr a). pose proof (Rle_0_sqr b). unfold Rsqr in *. rewrite <- !sqrt_Rsqr_abs. unfold Rsqr. split; apply sqrt_le_1; lra. }
    destruct (M1 (f2r (d_x p) - f2r (d_x u)) (f2r (d_y p) - f2r (d_y u))) as (M2 & M3). fold (moved u p) in M2, M3. pose proof (X _ (d_x u) M2 B1) as X1. pose proof (X _ (d_y u) M3 B2) as X2.
    replace (f2r (d_x p) - f2r (d_x u) + f2r (d_x u)) with (f2r (d_x p)) in X1 by ring. replace (f2r (d_y p) - f2r (d_y u) + f2r (d_y u)) with (f2r (d_y p)) in X2 by ring. split; [exact X1|]. split; [exact X2|].
    replace (f2r (d_th p)) with ((f2r (d_th p) - f2r (d_th u)) + f2r (d_th u)) by ring. pose proof (Rabs_triang (f2r (d_th p) - f2r (d_th u)) (f2r (d_th u))). lra. }
  destruct (C108_travel K ctl l lin ang sq c s at2 W s2 ki p kj p' TL SL MD TR AN O2 PP) as (PP' & MV' & TH'); [|exact R2|]. { fold V. constructor; auto; repeat split; try lra; auto; try apply WP. } fold V in MV'.
  split; [exact PP|]. split; [exact PP'|]. cbv zeta. set (Tm := (f2r t' - f2r t + 65 / 64 * f2r h) * (1 + bpow radix2 (-40))).
  assert (LTm : lasting s2 <= Tm).
  { destruct (grid_pos t0 T h n G) as (H0 & TRG). assert (b40 : 0 < bpow radix2 (-40)) by apply bpow_gt_0. set (e40 := bpow radix2 (-40)) in *.
    assert (F2 : List.Forall (fun x => f2r (snd x) <= f2r h * (1 + e40)) s2). { rewrite SPL in SH. apply Forall_app in SH. destruct SH as (_ & Y). apply Forall_app in Y. tauto. }
    assert (HC : 0 <= f2r h * (1 + e40)) by (apply Rmult_le_pos; lra). pose proof (part_lasting _ s2 HC O2 F2) as Q. rewrite N2, minus_INR in Q by auto. unfold nearest in Ni, Nj. destruct D as (Ft & D1 & D2). destruct D' as (Ft' & D1' & D2'). pose proof (g_many _ _ _ _ G) as GM.
    assert (DB : forall d, 0 <= d -> d <= (INR n + / 32) * f2r h -> bpow radix2 (-51) * d <= / 512 * f2r h). { intros d d0 d1. assert (P41 : bpow radix2 41 = 2 * bpow radix2 40) by (change 2 with (bpow radix2 1); rewrite <- bpow_plus; reflexivity). assert (P40 : 1 <= bpow radix2 40) by (change 1 with (bpow radix2 0); apply bpow_le; lia).
      assert (d <= bpow radix2 41 * f2r h) by (eapply Rle_trans; [exact d1|]; apply Rmult_le_compat_r; lra). assert (bpow radix2 (-51) * d <= bpow radix2 (-51) * (bpow radix2 41 * f2r h)) by (apply Rmult_le_compat_l; [apply bpow_ge_0|auto]). replace (bpow radix2 (-51) * (bpow radix2 41 * f2r h)) with (/ 1024 * f2r h) in * by (rewrite <- Rmult_assoc, <- bpow_plus; reflexivity). lra. }
    pose proof (DB (f2r t - f2r t0) ltac:(lra) ltac:(lra)) as DB1. pose proof (DB (f2r t' - f2r t0) ltac:(lra) ltac:(lra)) as DB2. assert (E8 : bpow radix2 (-800) * f2r h <= / 512 * f2r h) by (apply Rmult_le_compat_r; [lra|]; change (/ 512) with (bpow radix2 (-9)); apply bpow_le; lia).
    apply Rabs_le_inv in Ni. apply Rabs_le_inv in Nj. assert (JH : (INR j - INR i) * f2r h <= f2r t' - f2r t + 65 / 64 * f2r h) by lra.
    eapply Rle_trans; [exact Q|]. unfold Tm. replace ((INR j - INR i) * (f2r h * (1 + e40))) with ((INR j - INR i) * f2r h * (1 + e40)) by ring. apply Rmult_le_compat_r; lra. }
  split.
  - eapply Rle_trans; [exact MV'|]. apply Rplus_le_compat; [apply Rmult_le_compat_l; auto|]. apply Rmult_le_compat_r; [apply Rmult_le_pos; [lra|apply bpow_ge_0]|auto].
  - eapply Rle_trans; [exact TH'|]. apply Rplus_le_compat; [apply Rmult_le_compat_l; auto|]. apply Rmult_le_compat_r; [apply Rmult_le_pos; [lra|apply bpow_ge_0]|auto].
Qed.
Print Assumptions C110_speed.

(** getPersonPosition answers with the tracked point of the nearest sample, up to B 2^-49. *)
Theorem C110_person : forall sq c s at2 B S dbg t0 T u0 r t, close_trig c s -> attached B S -> List.Forall (fun x => pose_fin (snd x) /\ Rabs (f2r (d_x (snd x))) <= B /\ Rabs (f2r (d_y (snd x))) <= B) ((t0, u0) :: r) ->
  grid t0 T (S q_intStep) (length r) -> fst (last ((t0, u0) :: r) (t0, u0)) = T -> during t0 T t ->
  exists j m, (j <= length r)%nat /\ nearest t0 (S q_intStep) t j /\ i_person ieee (ieee_maths sq c s at2) dbg S ((t0, u0) :: r) t = Ok m
  /\ let u := snd (nth j ((t0, u0) :: r) (t0, u0)) in let th := f2r (d_th u) in fin (fst m) = true /\ fin (snd m) = true
  /\ Rabs (f2r (fst m) - (f2r (d_x u) + (cos th * f2r (S q_distX) - sin th * f2r (S q_distY)))) <= B * bpow radix2 (-49)
  /\ Rabs (f2r (snd m) - (f2r (d_y u) + (sin th * f2r (S q_distX) + cos th * f2r (S q_distY)))) <= B * bpow radix2 (-49).
Proof.
  intros sq c s at2 B S dbg t0 T u0 r t TR AT PF G LL D. destruct (C110_nearest dbg (S q_intStep) t0 u0 r T t G LL D) as (j & Hj & Nj & E). exists j, (p_person ieee (ieee_maths sq c s at2) S (snd (nth j ((t0, u0) :: r) (t0, u0)))).
  split; [exact Hj|]. split; [exact Nj|]. split; [unfold i_person; rewrite E; reflexivity|]. intros u th.
  assert (P : pose_fin u /\ Rabs (f2r (d_x u)) <= B /\ Rabs (f2r (d_y u)) <= B). { rewrite Forall_forall in PF. apply (PF (nth j ((t0, u0) :: r) (t0, u0))). apply nth_In. cbn [length]. lia. } destruct P as (P1 & P2 & P3).
  assert (B0 : 0 <= B) by (pose proof (Rabs_pos (f2r (d_x u))); lra).
  assert (Hz : held2 0 (fzero, fzero)). { assert (Z : held 0 fzero) by (split; [reflexivity|]; change (f2r fzero) with 0; rewrite Rabs_R0; lra). split; exact Z. }
  destruct (person_ok c s sq at2 B 0 S (fzero, fzero) u TR AT P1 P2 P3 Hz (bpow_ge_0 _ _)) as (F1 & F2 & O1 & O2 & _). split; [exact F1|]. split; [exact F2|].
  assert (K : 5 * (u64 * (3 * B)) <= B * bpow radix2 (-49)). { rewrite (proj2 u64_bounds). replace (bpow radix2 (-49)) with (16 * bpow radix2 (-53)) by (change 16 with (bpow radix2 4); rewrite <- bpow_plus; reflexivity). pose proof (Rmult_le_pos _ _ B0 (bpow_ge_0 radix2 (-53))). lra. }
  unfold off in O1, O2. split; (eapply Rle_trans; [first [exact O1|exact O2]|exact K]).
Qed.
Print Assumptions C110_person.

(** The documented "Time is out of range" cannot happen: whatever the time, the solution and the settings, getPersonPosition does not return
    false.  Before the first plan it reads an empty vector. *)
Theorem C110_never_false : forall sq c s at2 dbg S sol t, i_person ieee (ieee_maths sq c s at2) dbg S sol t <> Fail /\ i_person ieee (ieee_maths sq c s at2) dbg S [] t = UB.
Proof.
  intros. split; [|reflexivity]. unfold i_person, i_solution. destruct sol as [|(t0 & u0) r]; [discriminate|]. destruct (dbg && _); [discriminate|]. destruct (a_round _ _); discriminate.
Qed.
Print Assumptions C110_never_false.

(** A time out of range: with assertions the program is aborted.  Without them a time after the end silently gives the last sample, and a time
    one step before the beginning converts a negative number to size_t. *)
Theorem C110_range_refuted : exists (h t0 T early late : f64), grid t0 T h 1 /\ f2r early < f2r t0 /\ f2r T < f2r late /\ forall u0 u1, let sol := [(t0, u0); (T, u1)] in
  i_solution ieee true h sol early = UB /\ i_solution ieee true h sol late = UB /\ i_solution ieee false h sol early = UB /\ i_solution ieee false h sol late = Ok u1.
Proof.
  destruct f1_ok as (F1 & V1). destruct (fmake_exact 2 ltac:(lia)) as (F2 & V2). destruct (fmake_exact 5 ltac:(lia)) as (F5 & V5). destruct (fmake_exact 4 ltac:(lia)) as (F4 & V4). destruct (fmake_exact (-1) ltac:(lia)) as (Fm & Vm).
  exists f1, f1, (fmake 2 0), fzero, (fmake 5 0). rewrite V1, V2, V5. change (f2r fzero) with 0.
  pose proof (bpow_le radix2 1 100 ltac:(lia)) as L1. pose proof (bpow_le radix2 100 400 ltac:(lia)) as L2. pose proof (bpow_le radix2 (-100) 0 ltac:(lia)) as L3. pose proof (bpow_le radix2 1 40 ltac:(lia)) as L4. pose proof (bpow_gt_0 radix2 (-45)) as L5. change (bpow radix2 1) with 2 in *. change (bpow radix2 0) with 1 in *.
  split. { constructor; unfold held; rewrite ?V1, ?V2; rewrite ?Rabs_pos_eq by lra; simpl INR; repeat split; auto; lra. }
  split; [lra|]. split; [lra|]. intros u0 u1 sol. unfold i_solution, sol. cbn [last fst length Nat.sub]. cbn [a_le a_div a_sub a_round ieee].
  assert (E1 : fdiv (fsub fzero f1) f1 = fmake (-1) 0) by (apply same_f64; vm_compute; reflexivity). assert (E2 : fdiv (fsub (fmake 5 0) f1) f1 = fmake 4 0) by (apply same_f64; vm_compute; reflexivity).
  assert (B1 : Bleb f1 fzero = false) by (vm_compute; reflexivity). assert (B2 : Bleb (fmake 5 0) (fmake 2 0) = false) by (vm_compute; reflexivity). rewrite E1, E2, B1, B2, Bool.andb_false_r. cbn [andb negb]. unfold fround. rewrite Fm, F4, Vm, V4.
  assert (R1 : (Rround (-1) < 0)%Z). { apply lt_IZR. unfold Rround. destruct (Rlt_dec (-1) 0) as [q|q]; [|lra]. rewrite opp_IZR. pose proof (Zfloor_ub (- -1 + / 2)). lra. }
  rewrite (Rround_IZR 4) by lia. unfold to_size64. rewrite (proj2 (Z.ltb_lt _ _) R1). repeat split; reflexivity.
Qed.
Print Assumptions C110_range_refuted.

(** The case of C108, read at its start and at its end. *)
Example C110_example : let l := [sSat f1 f1] in let steps := [(fzero, fmake 1 (-2)); (fmake 1 (-2), fmake 1 (-2))] in let u := MkDP f1 fzero f1 in
  List.Forall tame l /\ sat64 l = Some (f1, f1) /\ moderate f1 f1 (turn64 l) (back64 l) (side64 l) /\ close_trig near_cos near_sin /\ answers 8 nat c108_ctl
  /\ List.Forall step_ok steps /\ pose_fin u /\ world (8 / 2) (top_speed 1 1 1) 1 (lasting steps) 2 u /\ 8 <= bpow radix2 400
  /\ hd (fmake 1 (-1)) (map fst steps) = fzero /\ grid fzero (fmake 1 (-1)) (fmake 1 (-2)) 2 /\ List.Forall (fun x => f2r (snd x) <= f2r (fmake 1 (-2)) * (1 + bpow radix2 (-40))) steps
  /\ during fzero (fmake 1 (-1)) fzero /\ during fzero (fmake 1 (-1)) (fmake 1 (-1)) /\ attached 128 (settings ieee l)
  /\ (forall sq at2, exists tr, u_trace ieee (ieee_maths sq near_cos near_sin at2) c108_ctl (settings ieee l) 0%nat u steps = Some tr).
Proof.
  intros l steps u. destruct C108_example as (E1 & E2 & E3 & E4 & _ & E5 & E6 & E7 & _). destruct C109_example as (_ & _ & _ & _ & _ & _ & _ & E8 & _).
  assert (P : forall e, (-1000 <= e <= 1000)%Z -> fin (fmake 1 e) = true /\ f2r (fmake 1 e) = bpow radix2 e).
  { intros e He. assert (E : F2R (Float radix2 1 e) = bpow radix2 e) by (unfold F2R; cbn [Fnum Fexp]; ring). destruct (fmake_ok 1 e) as (A & C); rewrite E in *.
    - rewrite Rabs_pos_eq by apply bpow_ge_0. pose proof pow_top. pose proof (bpow_le radix2 e 1023 ltac:(lia)). lra.
    - split; auto. rewrite C. replace (bpow radix2 e) with (IZR 1 * bpow radix2 e) by ring. apply b64_fix, is_b64_dyadic; lia. }
  destruct (P (-1)%Z ltac:(lia)) as (FT & VT). destruct (P (-2)%Z ltac:(lia)) as (FH & VH). change (bpow radix2 (-1)) with (/ 2) in VT. change (bpow radix2 (-2)) with (/ 4) in VH.
  pose proof (bpow_le radix2 3 40 ltac:(lia)) as L0. pose proof (bpow_le radix2 40 100 ltac:(lia)) as L1. pose proof (bpow_le radix2 100 400 ltac:(lia)) as L2. pose proof (bpow_le radix2 (-100) (-2) ltac:(lia)) as L3. pose proof (bpow_gt_0 radix2 (-45)) as L5. pose proof (bpow_gt_0 radix2 (-40)) as L6. change (bpow radix2 3) with 8 in *. change (bpow radix2 (-2)) with (/ 4) in *.
  repeat (split; [assumption|]). split. { intros k t w k' raw _ _ E. injection E as _ <-. repeat split; discriminate. } split; [exact E5|]. split; [exact E6|]. split; [replace (8 / 2) with 4 by lra; exact E7|]. split; [lra|]. split; [reflexivity|].
  split. { constructor; unfold held; rewrite ?VT, ?VH; change (f2r fzero) with 0; rewrite ?Rabs_R0; rewrite ?Rabs_pos_eq by lra; simpl INR; repeat split; auto; lra. }
  split. { repeat constructor; cbn [snd]; rewrite VH; lra. } split. { unfold during. rewrite VT. change (f2r fzero) with 0. repeat split; lra. } split. { unfold during. rewrite VT. change (f2r fzero) with 0. repeat split; auto; lra. } split; [exact E8|].
  intros sq at2. eexists. unfold steps. cbn [u_trace c108_ctl]. reflexivity.
Qed.
